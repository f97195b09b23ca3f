(** C107 for indexed sets, maps and the bidirectional collections: calls that break a documented
    rule throw what their Javadoc says, and change nothing. *)
From Verif Require Import JBase JLemmas JHist Num_Model Codec_Model Hash_Model Hash_Spec Hash_Proofs Hash_Step
  Hash_Iter Hash_Calls Hash_Mods Hash_Main Hash_More Hash_Props Bi_Model Bi_Spec.
From Verif Require Look_Props.

Section Hash.
  Context {K V : Type} (dfltK : K) (dfltV : V) (ismap : bool).
  Variable hashf : Z -> K -> Z.
  Variable eqf : Z -> K -> K -> bool.
  Variable ok : K -> Prop.
  Notation hash := (hash K V).
  Notation hstep := (hstep dfltK dfltV ismap hashf eqf).
  Notation reachable := (reachable dfltK dfltV ismap hashf eqf ok).
  Implicit Types (s : hash).

  Lemma removeAt_loop_negative fuel : forall head entry prev e s, entry < 0 ->
    (removeAt_loop dfltK dfltV ismap fuel head entry prev e s).2 = s.
  Proof.
    induction fuel as [|fuel IH]; intros head entry prev e s He; [done|]. cbn [removeAt_loop].
    destruct (Z.ltb_spec e 0); [done|]. destruct (Z.eqb_spec e entry); [lia|]. cbn [negb].
    unfold bind, rd. destruct (aget (nexts s) e); [by apply IH|done].
  Qed.
  Lemma getHead_negative fuel entry s : entry < 0 -> fuel <> O -> getHead_loop fuel entry s = (Ok (- entry - 1), s).
  Proof. intros He Hf. destruct fuel; [done|]. cbn. destruct (Z.leb_spec 0 entry); [lia|done]. Qed.

  (** [n] is what capacity() answers.  The entry methods throw IndexOutOfBoundsException for every
      entry outside [0, n), [getKeyAt] and [getValueAt] exactly for those; get throws
      KeyNotFoundException exactly for absent keys.  Nothing changes.  The exception: removeAt of a
      negative entry also changes nothing but need not throw. *)
  Theorem C107_hash_partial : forall a s n, reachable a s -> (hstep HCapacity s).1 = Ok (HZ n) ->
    (forall e, e < 0 \/ n <= e ->
       hstep (HGetKeyAt e) s = (Exn IndexOutOfBounds, s) /\
       hstep (HReserve e) s = (Exn IndexOutOfBounds, s) /\ hstep (HFree e) s = (Exn IndexOutOfBounds, s) /\
       (ismap = true -> hstep (HGetValueAt e) s = (Exn IndexOutOfBounds, s) /\ forall v, hstep (HPutValueAt e v) s = (Exn IndexOutOfBounds, s)) /\
       (n <= e -> hstep (HRemoveAt e) s = (Exn IndexOutOfBounds, s)) /\
       (e < 0 -> (hstep (HRemoveAt e) s).2 = s /\ ((hstep (HRemoveAt e) s).1 = Ok HUnit \/ (hstep (HRemoveAt e) s).1 = Exn IndexOutOfBounds))) /\
    (forall e, 0 <= e < n ->
       (exists k, hstep (HGetKeyAt e) s = (Ok (HK k), s)) /\ (ismap = true -> exists v, hstep (HGetValueAt e) s = (Ok (HV v), s))) /\
    (forall k, ok k -> ismap = true -> (hstep (HGet k) s).2 = s /\ ((hstep (HGet k) s).1 = Exn KeyNotFound <-> lacks eqf a k)).
  Proof.
    intros a s n R Hn. destruct (reachable_inv _ _ R) as (C & fr & I). pose proof (i_core _ _ _ _ I) as Ic.
    pose proof (c_n _ _ _ _ _ Ic) as Ln. pose proof (c_k _ _ _ _ _ Ic) as Lk. pose proof (c_v _ _ _ _ _ Ic) as Lv.
    injection Hn as <-. split; [|split].
    - intros e He. assert (forall (A : Type) (l : list A), alen l = capacity s -> aget l e = None) as Ha.
      { intros A l Hl. apply aget_None. rewrite Hl. lia. }
      assert (0 <= capacity s) as Hc. { rewrite <- Ln. apply alen_nonneg. }
      split; [|split; [|split; [|split; [|split]]]].
      + cbn [Hash_Model.hstep]. unfold out_map, bind, rd. by rewrite Ha.
      + cbn [Hash_Model.hstep]. unfold out_map, removeAtAndReserve, bind, rd. by rewrite Ha.
      + cbn [Hash_Model.hstep]. unfold out_map, freeReservedEntry. unfold bind, gets. unfold wr_nexts. rewrite wr_bad by lia. done.
      + intros Em. split; [|intros v]; cbn [Hash_Model.hstep].
        * unfold out_map, bind, rd. by rewrite Ha by auto.
        * unfold out_map, bind, wr_values. rewrite wr_bad; [done|]. rewrite Lv by done. lia.
      + intros Hb. cbn [Hash_Model.hstep]. unfold out_map, h_removeAt. unfold chain_fuel. unfold bind at 1 2, gets at 1. cbn [getHead_loop].
        destruct (Z.leb_spec 0 e); [|lia]. unfold bind, rd. by rewrite Ha.
      + intros Hb. destruct (hstep (HRemoveAt e) s) as [r s'] eqn:E. cbn [fst snd].
        destruct (serve _ _ _ _ _ _ _ _ (HRemoveAt e) _ _ R Logic.I E) as [A _]. split.
        * revert E. cbn [Hash_Model.hstep]. unfold out_map, h_removeAt. unfold bind at 1 2, gets at 1. cbv zeta. unfold bind at 1. rewrite getHead_negative by done.
          unfold bind at 1, rd. destruct (aget (heads s) (- e - 1)) as [h|]; [|intros [= _ <-]; done].
          pose proof (removeAt_loop_negative (chain_fuel s) (- e - 1) e (-1) h s Hb) as Hs. destruct (removeAt_loop _ _ _ _ _ _ _ _ _) as [[]? ]; cbn in Hs |- *; intros [= _ <-]; done.
        * cbn [answer] in A. destruct r as [[]|x|]; try done; [by left|]. destruct A as [-> _]. by right.
    - intros e He. split; [|intros Em]; cbn [Hash_Model.hstep]; unfold out_map, bind, rd.
      + destruct (aget_is_Some (keys s) e ltac:(lia)) as [k ->]. eauto.
      + specialize (Lv Em). destruct (aget_is_Some (values s) e ltac:(lia)) as [k ->]. eauto.
    - intros k Hk Em. split; [by apply (Look_Props.C102_hash K V dfltK dfltV ismap hashf eqf (HGet k) eq_refl s)|]. destruct (get_result _ _ _ _ _ _ _ _ k R Hk Em) as [(e & k' & v & El & Eq & Hg & _)|(La & Hg & _)]; rewrite Hg.
      + split; [done|]. intros La. apply La in El. congruence.
      + done.
  Qed.
End Hash.

(** The bidirectional collections, in any state. *)
Theorem C107_bi_partial : forall s e, e < 0 \/ alen (keys (mappings s)) <= e ->
  bstep (BLeftAt e) s = (Exn IndexOutOfBounds, s) /\ bstep (BRightAt e) s = (Exn IndexOutOfBounds, s) /\
  bstep (BRemoveAt e) s = (Exn IndexOutOfBounds, s) /\ bstep (BReserve e) s = (Exn IndexOutOfBounds, s) /\
  (alen (nexts (mappings s)) = alen (keys (mappings s)) -> bstep (BFree e) s = (Exn IndexOutOfBounds, s)).
Proof.
  intros [m l r] e He. cbn [mappings] in He.
  assert (on_map (rd keys e) (mkBi m l r) = (Exn IndexOutOfBounds, mkBi m l r)) as Hr.
  { unfold on_map, zoom. cbn [mappings]. rewrite rd_bad by lia. done. }
  split; [|split; [|split; [|split]]]; cbn [bstep mappings].
  - unfold out_map, getLeftAt, bind. by rewrite Hr.
  - unfold out_map, getRightAt, bind. by rewrite Hr.
  - unfold out_map, b_removeAt, bind. by rewrite Hr.
  - unfold out_map, b_reserve, bind. by rewrite Hr.
  - intros En. unfold out_map, b_free, on_map, zoom, bind. cbn [mappings]. unfold freeReservedEntry, bind, gets, wr_nexts. rewrite wr_bad by lia. done.
Qed.

(** ** Examples *)
Notation mstep := (hstep 0 0 true (fun _ k => k) (fun _ => Z.eqb)).
Example C107_case_hash : exists s0 s,
  new_Hash 0 0 true 2 (LF 3 2) = Ok s0 /\ (mstep (HPut 7 70) s0).2 = s /\ (mstep HCapacity s).1 = Ok (HZ 2) /\
  mstep (HGetKeyAt 2) s = (Exn IndexOutOfBounds, s) /\ mstep (HRemoveAt 5) s = (Exn IndexOutOfBounds, s) /\
  (mstep (HGet 8) s).1 = Exn KeyNotFound /\ (mstep (HGet 7) s).1 = Ok (HV 70).
Proof. eexists _, _. split; [vm_compute; reflexivity|]. split; [reflexivity|]. vm_compute. done. Qed.
Example C107_case_bi : exists s0 s, new_Bi 2 (Some 2) 2 true = Ok s0 /\ (bstep (BPut 1 1) s0).2 = s /\
  alen (keys (mappings s)) = 2 /\ alen (nexts (mappings s)) = 2 /\ bstep (BRemoveAt 2) s = (Exn IndexOutOfBounds, s).
Proof. eexists _, _. split; [vm_compute; reflexivity|]. split; [reflexivity|]. vm_compute. done. Qed.

(** BaseKeyIndex.ftl:99 promises IndexOutOfBoundsException for entries outside the bounds of the
    array; removeAt(-2) returns normally. *)
Theorem C107_removeAt_refuted : exists s0 s e,
  new_Hash 0 0 true 2 (LF 3 2) = Ok s0 /\ mstep (HPut 7 70) s0 = (Ok (HZ 0), s) /\ e < 0 /\ mstep (HRemoveAt e) s = (Ok HUnit, s).
Proof. eexists _, _, (-2). split; [vm_compute; reflexivity|]. split; [vm_compute; reflexivity|]. split; [lia|]. vm_compute. reflexivity. Qed.
(** Mapping.java:36 promises IllegalArgumentException when the counts are not enabled; count()
    throws IllegalStateException. *)
Theorem C107_count_refuted : exists s0 s, new_Bi 2 (Some 2) 2 false = Ok s0 /\ bstep (BPut 1 1) s0 = (Ok (OZ 0), s) /\
  forall right key, bstep (BCount right key) s = (Exn IllegalState, s).
Proof. eexists _, _. split; [vm_compute; reflexivity|]. split; [vm_compute; reflexivity|]. intros [] key; reflexivity. Qed.

Print Assumptions C107_hash_partial.
Print Assumptions C107_bi_partial.
Print Assumptions C107_removeAt_refuted.
Print Assumptions C107_count_refuted.
