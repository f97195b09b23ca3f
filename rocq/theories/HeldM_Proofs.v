(** What indexed sets and maps hold (C96). *)
From Verif Require Import JBase JLemmas JHist Num_Model Num_Spec Num_Proofs Grow_Lemmas Hash_Model Hash_Spec Hash_Tab Hash_Proofs
  Hash_Step Hash_Iter Hash_Copy Hash_Calls Hash_Mods Hash_Main HeldM_Spec Keep.

(** Cell [e] of an array, [d] outside. *)
Definition cell {X} (d : X) (l : list X) (e : Z) : X := default d (aget l e).
(** Outside [P] every cell is as before or holds [d]. *)
Definition fades {X} (d : X) (P : Z -> Prop) (l l' : list X) : Prop :=
  forall e, P e \/ cell d l' e = cell d l e \/ cell d l' e = d.
Lemma fades_refl {X} (d : X) P l : fades d P l l. Proof. intros e. auto. Qed.
Lemma fades_trans {X} (d : X) P l1 l2 l3 : fades d P l1 l2 -> fades d P l2 l3 -> fades d P l1 l3.
Proof. intros H1 H2 e. destruct (H1 e) as [?|[E1|E1]], (H2 e) as [?|[E2|E2]]; auto; right; rewrite E2, E1; auto. Qed.
Lemma cell_pad {X} (d : X) l n e : cell d (padto l n d) e = cell d l e.
Proof.
  unfold cell. destruct (aget (padto l n d) e) as [x|] eqn:E.
  - destruct (aget l e) as [y|] eqn:E2; [rewrite (aget_padto_Some _ _ _ _ _ E2) in E; by injection E as ->|].
    destruct (Z.le_gt_cases (alen l) n).
    + apply aget_Some in E as Hr. rewrite alen_padto in Hr by lia. rewrite aget_padto in E by lia.
      case_decide; [by injection E as <-|]. destruct (aget_is_Some l e ltac:(lia)). congruence.
    + rewrite padto_same in E by lia. congruence.
  - destruct (aget l e) as [y|] eqn:E2; [by rewrite (aget_padto_Some _ _ _ _ _ E2) in E|done].
Qed.
Lemma cell_upd {X} (d : X) l e x i : 0 <= e < alen l -> cell d (upd l e x) i = if decide (i = e) then x else cell d l i.
Proof.
  intros He. unfold cell. case_decide as Hd; [subst; by rewrite aget_upd_eq|]. destruct (aget (upd l e x) i) as [y|] eqn:E.
  - pose proof (aget_Some _ _ _ E) as Hr. rewrite alen_upd in Hr. rewrite aget_upd_ne in E by lia. by rewrite E.
  - destruct (aget l i) as [y|] eqn:E2; [|done]. pose proof (aget_Some _ _ _ E2). rewrite aget_upd_ne in E by lia. congruence.
Qed.

Section Held.
  Context {K V : Type}.
  Variables (dfltK : K) (dfltV : V) (ismap : bool) (hashf : Z -> K -> Z)
          (eqf : Z -> K -> K -> bool) (ok : K -> Prop).
  Notation hash := (hash K V).
  Notation abs := (abs K V).
  Notation hop := (hop K V).
  Notation hout := (hout K V).
  Notation call := (hop * res hout)%type.
  Notation inv := (@inv K V ismap hashf eqf ok).
  Notation hstep := (hstep dfltK dfltV ismap hashf eqf).
  Notation abs_step := (abs_step dfltV).
  Notation permitted := (permitted ismap hashf eqf ok).
  Notation answer := (answer eqf).
  Notation reachable := (reachable dfltK dfltV ismap hashf eqf ok).
  Implicit Types (s : hash) (a : abs).

  Definition kat s e : K := cell dfltK (keys s) e.
  Definition vat s e : V := cell dfltV (values s) e.
  Definition arr (P : Z -> Prop) s s' : Prop := fades dfltK P (keys s) (keys s') /\ fades dfltV P (values s) (values s').
  Definition nobody (e : Z) : Prop := False.
  Lemma arr_refl P s : arr P s s. Proof. split; apply fades_refl. Qed.
  Lemma arr_trans P s1 s2 s3 : arr P s1 s2 -> arr P s2 s3 -> arr P s1 s3.
  Proof. intros [H1 H2] [H3 H4]. split; by eapply fades_trans. Qed.
  Lemma arr_same P s s' : keys s' = keys s -> values s' = values s -> arr P s s'.
  Proof. intros E1 E2. unfold arr. rewrite E1, E2. apply arr_refl. Qed.
  Lemma arr_weak P s s' : arr nobody s s' -> arr P s s'.
  Proof. intros [H1 H2]. split; intros e; [destruct (H1 e)|destruct (H2 e)]; try done; auto. Qed.
  (** Both cells of an entry are reset. *)
  Definition wiped s e : Prop := kat s e = dfltK /\ (ismap = true -> vat s e = dfltV).
  Lemma wiped_arr P s s' e : arr P s s' -> ~ P e -> wiped s e -> wiped s' e.
  Proof.
    intros [H1 H2] HP [W1 W2]. unfold wiped, kat, vat in *. split.
    - destruct (H1 e) as [?|[-> | ->]]; done.
    - intros Em. specialize (W2 Em). destruct (H2 e) as [?|[-> | ->]]; done.
  Qed.

  (** ** The calls *)
  Definition arrm {A} (m : M hash A) : Prop := forall s, arr nobody s (m s).2.
  Lemma arrm_bind {A B} (m : M hash A) (k : A -> M hash B) : arrm m -> (forall x, arrm (k x)) -> arrm (bind m k).
  Proof.
    intros Hm Hk s. specialize (Hm s). unfold bind. destruct (m s) as [[x|x|] s1]; cbn in *; [|done..].
    eapply arr_trans; [exact Hm|apply Hk].
  Qed.
  Lemma arrm_keeps {A} (m : M hash A) : keeps keys m -> keeps values m -> arrm m.
  Proof. intros H1 H2 s. apply arr_same; [apply H1|apply H2]. Qed.
  Lemma arrm_use {A} (m : M hash A) s r s' : arrm m -> m s = (r, s') -> arr nobody s s'.
  Proof. intros H E. specialize (H s). by rewrite E in H. Qed.
  Lemma arrm_zoom {A} (m : M hash A) : arrm m -> arrm m. Proof. done. Qed.
  Lemma arrm_if {A} (b : bool) (m m' : M hash A) : arrm m -> arrm m' -> arrm (if b then m else m').
  Proof. by destruct b. Qed.

  Lemma wrk s e k r s' : wr_keys e k s = (r, s') -> (r <> Ok tt /\ s' = s) \/
    (r = Ok tt /\ 0 <= e < alen (keys s) /\ s' = s <| keys := upd (keys s) e k |>).
  Proof.
    unfold wr_keys, wr, aset. destruct ((0 <=? e) && (e <? alen (keys s))) eqn:E; intros [= <- <-]; [right|left; split; [done|done]].
    apply andb_prop in E as [E1 E2]. split; [done|]. split; [lia|done].
  Qed.
  Lemma wrv s e v r s' : wr_values e v s = (r, s') -> (r <> Ok tt /\ s' = s) \/
    (r = Ok tt /\ 0 <= e < alen (values s) /\ s' = s <| values := upd (values s) e v |>).
  Proof.
    unfold wr_values, wr, aset. destruct ((0 <=? e) && (e <? alen (values s))) eqn:E; intros [= <- <-]; [right|left; split; [done|done]].
    apply andb_prop in E as [E1 E2]. split; [done|]. split; [lia|done].
  Qed.
  Lemma wrk_arr s e k r s' : wr_keys e k s = (r, s') -> arr (eq e) s s'.
  Proof.
    intros [[_ ->]|(_ & He & ->)]%wrk; [apply arr_refl|]. split; [|apply fades_refl]. intros i. cbn. rewrite cell_upd by done.
    case_decide; auto.
  Qed.
  Lemma wrv_arr s e v r s' : wr_values e v s = (r, s') -> arr (eq e) s s'.
  Proof.
    intros [[_ ->]|(_ & He & ->)]%wrv; [apply arr_refl|]. split; [apply fades_refl|]. intros i. cbn. rewrite cell_upd by done.
    case_decide; auto.
  Qed.
  Lemma wrk_dflt e : arrm (wr_keys e dfltK).
  Proof.
    intros s. destruct (wr_keys e dfltK s) as [r s'] eqn:E. cbn. apply wrk in E as [[_ ->]|(_ & He & ->)]; [apply arr_refl|].
    split; [|apply fades_refl]. intros i. cbn. rewrite cell_upd by done. case_decide; auto.
  Qed.
  Lemma wrv_dflt e : arrm (wr_values e dfltV).
  Proof.
    intros s. destruct (wr_values e dfltV s) as [r s'] eqn:E. cbn. apply wrv in E as [[_ ->]|(_ & He & ->)]; [apply arr_refl|].
    split; [apply fades_refl|]. intros i. cbn. rewrite cell_upd by done. case_decide; auto.
  Qed.
  Ltac ak := apply arrm_keeps; repeat keep1.

  Lemma removeValue_arr e : arrm (removeValue dfltV ismap e).
  Proof. unfold removeValue. apply arrm_if; [apply wrv_dflt|ak]. Qed.
  Lemma free_arr e : arrm (freeReservedEntry dfltK dfltV ismap e).
  Proof.
    unfold freeReservedEntry. apply arrm_bind; [ak|intros fl]. apply arrm_bind; [unfold wr_nexts; ak|intros _].
    apply arrm_bind; [ak|intros _]. apply arrm_bind; [apply wrk_dflt|intros _]. apply removeValue_arr.
  Qed.
  Lemma free_wiped s e x s' : freeReservedEntry dfltK dfltV ismap e s = (Ok x, s') -> wiped s' e.
  Proof.
    unfold freeReservedEntry. intros H. apply bind_inv_ok in H as (fl & s1 & _ & H). apply bind_inv_ok in H as (u & s2 & _ & H).
    apply bind_inv_ok in H as (u2 & s3 & _ & H). apply bind_inv_ok in H as (u3 & s4 & E & H).
    destruct u3. apply wrk in E as [[? _]|(_ & He & E)]; [done|].
    assert (kat s4 e = dfltK) as Hk by (subst s4; unfold kat; cbn; rewrite cell_upd by done; by rewrite decide_True).
    unfold removeValue in H. split.
    - destruct ismap; [|by injection H as _ <-]. destruct x. apply wrv in H as [[? _]|(_ & Hr & ->)]; done.
    - intros Em. rewrite Em in H. destruct x. apply wrv in H as [[? _]|(_ & Hr & ->)]; [done|].
      unfold vat. cbn. rewrite cell_upd by done. by rewrite decide_True.
  Qed.
  Lemma unlink_arr h p n : arrm (unlink (K:=K) (V:=V) h p n).
  Proof. unfold unlink, wr_heads, wr_nexts. ak. Qed.
  Lemma unlink_size h p n : keeps hsize (unlink (K:=K) (V:=V) h p n).
  Proof. unfold unlink, wr_heads, wr_nexts. repeat keep1. Qed.
  Lemma free_size e : keeps hsize (freeReservedEntry dfltK dfltV ismap e).
  Proof. unfold freeReservedEntry, removeValue, wr_nexts, wr_keys, wr_values. repeat keep1. Qed.
  Lemma getHead_pure fuel : forall e, keeps (fun s : hash => s) (getHead_loop fuel e).
  Proof. induction fuel as [|n IH]; intros e; cbn [getHead_loop]; repeat keep1. apply IH. Qed.
  Lemma lookup_pure fuel key : forall e, keeps (fun s : hash => s) (lookup_loop eqf fuel key e).
  Proof. induction fuel as [|n IH]; intros e; cbn [lookup_loop]; repeat keep1. apply IH. Qed.
  Lemma pure_arr {A} (m : M hash A) : keeps (fun s => s) m -> arrm m.
  Proof. intros H s. rewrite H. apply arr_refl. Qed.

  (** removeAt: either nothing happened, or the entry was found and is reset. *)
  Definition gone s s' e : Prop := hsize s' = hsize s \/ (hsize s' = hsize s - 1 /\ wiped s' e).
  Lemma removeAt_loop_arr fuel : forall head entry prev e, arrm (removeAt_loop dfltK dfltV ismap fuel head entry prev e).
  Proof.
    induction fuel as [|n IH]; intros head entry prev e; cbn [removeAt_loop]; [ak|]. apply arrm_if; [ak|]. apply arrm_if.
    - apply arrm_bind; [ak|]. intros. apply IH.
    - apply arrm_bind; [ak|intros nx]. apply arrm_bind; [apply unlink_arr|intros _]. apply arrm_bind; [apply free_arr|intros _].
      apply arrm_bind; [ak|intros _]. unfold touch. ak.
  Qed.
  Lemma removeAt_loop_gone fuel : forall head entry prev e s x s', removeAt_loop dfltK dfltV ismap fuel head entry prev e s = (Ok x, s') ->
    gone s s' entry.
  Proof.
    induction fuel as [|n IH]; intros head entry prev e s x s'; cbn [removeAt_loop]; [done|].
    destruct (e <? 0); [intros [= _ <-]; by left|]. destruct (Z.eqb_spec e entry) as [->|]; cbn [negb]; intros H.
    - apply bind_inv_ok in H as (nx & s1 & E1 & H). apply (keeps_use (fun s : hash => s)) in E1; [|repeat keep1]. subst s1.
      apply bind_inv_ok in H as (u & s1 & E1 & H). apply (keeps_use hsize) in E1; [|apply unlink_size].
      apply bind_inv_ok in H as (u2 & s2 & E2 & H). pose proof (free_wiped _ _ _ _ E2) as W. apply (keeps_use hsize) in E2; [|apply free_size].
      apply bind_inv_ok in H as (u3 & s3 & E3 & H). injection E3 as _ <-. injection H as _ <-. right. cbn. split; [congruence|exact W].
    - apply bind_inv_ok in H as (nx & s1 & E1 & H). apply (keeps_use (fun s : hash => s)) in E1; [|repeat keep1]. subst s1.
      by apply IH in H.
  Qed.
  Lemma removeAt_arr e : arrm (h_removeAt dfltK dfltV ismap e).
  Proof.
    unfold h_removeAt. apply arrm_bind; [ak|intros fuel]. apply arrm_bind; [apply pure_arr, getHead_pure|intros head].
    apply arrm_bind; [ak|]. intros. apply removeAt_loop_arr.
  Qed.
  Lemma removeAt_gone s e x s' : h_removeAt dfltK dfltV ismap e s = (Ok x, s') -> gone s s' e.
  Proof.
    unfold h_removeAt. intros H. apply bind_inv_ok in H as (fuel & s1 & E & H). injection E as _ <-.
    apply bind_inv_ok in H as (head & s1 & E & H). apply (keeps_use (fun s : hash => s)) in E; [|apply getHead_pure]. subst s1.
    apply bind_inv_ok in H as (e0 & s1 & E & H). apply (keeps_use (fun s : hash => s)) in E; [|repeat keep1]. subst s1.
    by apply removeAt_loop_gone in H.
  Qed.

  (** remove(key) *)
  Lemma remove_loop_arr fuel head key free : forall prev e, arrm (remove_loop dfltK dfltV ismap eqf fuel head key free prev e).
  Proof.
    induction fuel as [|n IH]; intros prev e; cbn [remove_loop]; [ak|]. apply arrm_if; [ak|].
    apply arrm_bind; [ak|intros k]. apply arrm_bind; [ak|intros q]. apply arrm_if.
    - apply arrm_bind; [ak|]. intros. apply IH.
    - apply arrm_bind; [ak|intros nx]. apply arrm_bind; [apply unlink_arr|intros _].
      apply arrm_bind; [destruct free; [apply free_arr|unfold wr_nexts; ak]|intros _].
      apply arrm_bind; [ak|intros _]. unfold touch. ak.
  Qed.
  Lemma remove_loop_wiped fuel head key : forall prev e s i s', remove_loop dfltK dfltV ismap eqf fuel head key true prev e s = (Ok i, s') ->
    0 <= i -> wiped s' i.
  Proof.
    induction fuel as [|n IH]; intros prev e s i s'; cbn [remove_loop]; [done|]. destruct (e <? 0); [intros [= <- _]; lia|].
    intros H Hi. apply bind_inv_ok in H as (k & s1 & E1 & H). apply bind_inv_ok in H as (q & s2 & E2 & H).
    destruct (eqf q key k); cbn [negb] in H.
    - apply bind_inv_ok in H as (nx & s3 & _ & H). apply bind_inv_ok in H as (u & s4 & _ & H).
      apply bind_inv_ok in H as (u2 & s5 & E5 & H). apply free_wiped in E5.
      apply bind_inv_ok in H as (u3 & s6 & E6 & H). injection E6 as _ <-. apply bind_inv_ok in H as (u4 & s7 & E7 & H). injection E7 as _ <-.
      injection H as <- <-. exact E5.
    - apply bind_inv_ok in H as (nx & s3 & _ & H). by eapply IH.
  Qed.
  Lemma remove2_arr key free : arrm (h_remove2 dfltK dfltV ismap hashf eqf key free).
  Proof.
    unfold h_remove2. apply arrm_bind; [unfold computeHead; ak|intros head]. apply arrm_bind; [ak|intros he]. apply arrm_if; [ak|].
    apply arrm_bind; [ak|]. intros. apply remove_loop_arr.
  Qed.
  Lemma remove_wiped s key i s' : h_remove dfltK dfltV ismap hashf eqf key s = (Ok i, s') -> 0 <= i -> wiped s' i.
  Proof.
    unfold h_remove, h_remove2. intros H Hi. apply bind_inv_ok in H as (head & s1 & _ & H). apply bind_inv_ok in H as (he & s2 & _ & H).
    destruct (he <? 0); [injection H as <- _; lia|]. apply bind_inv_ok in H as (fuel & s3 & _ & H). by eapply remove_loop_wiped.
  Qed.

  (** ** Adding *)
  Lemma growKeys_arr n : arrm (growKeys (V:=V) dfltK n).
  Proof.
    unfold growKeys. intros s. unfold bind, gets, of_res. cbn. rewrite ensureSize_grown.
    destruct (grown (alen (keys s)) n) as [m|x|]; cbn; [|apply arr_refl..]. split; [|apply fades_refl].
    intros e. cbn. rewrite cell_pad. auto.
  Qed.
  Lemma growValues_arr n : arrm (growValues (K:=K) dfltV ismap n).
  Proof.
    unfold growValues. destruct ismap; [|ak]. intros s. unfold bind, gets, of_res. cbn. rewrite ensureSize_grown.
    destruct (grown (alen (values s)) n) as [m|x|]; cbn; [|apply arr_refl..]. split; [apply fades_refl|].
    intros e. cbn. rewrite cell_pad. auto.
  Qed.
  Lemma register_keeps {T} (f : hash -> T) h e : (forall l s, f (s <| heads := l |>) = f s) -> (forall l s, f (s <| nexts := l |>) = f s) ->
    keeps f (registerNewEntryForHead (K:=K) (V:=V) h e).
  Proof. intros H1 H2. unfold registerNewEntryForHead, wr_nexts, wr_heads. repeat keep1; by apply keeps_wr. Qed.
  Lemma rehash_chain_arr fuel on ok' : forall e, arrm (rehash_chain (K:=K) (V:=V) hashf fuel on ok' e).
  Proof.
    induction fuel as [|n IH]; intros e; cbn [rehash_chain]; [ak|]. apply arrm_if; [ak|]. apply arrm_bind; [ak|intros k].
    apply arrm_bind; [unfold computeHead; ak|intros h]. apply arrm_bind; [apply arrm_keeps; by apply register_keeps|intros _].
    apply arrm_bind; [unfold updateMaxHead; ak|intros _]. apply arrm_bind; [ak|]. intros. apply IH.
  Qed.
  Lemma rehash_heads_arr n : forall oh on ok' i, arrm (rehash_heads (K:=K) (V:=V) hashf n oh on ok' i).
  Proof.
    induction n as [|n IH]; intros; cbn [rehash_heads]; [ak|]. apply arrm_bind; [ak|intros e].
    apply arrm_bind; [apply rehash_chain_arr|]. intros. apply IH.
  Qed.
  Lemma rehash_arr : arrm (rehash dfltK dfltV ismap hashf).
  Proof.
    unfold rehash. apply arrm_bind; [ak|intros oh]. apply arrm_bind; [ak|intros on]. apply arrm_bind; [ak|intros ok'].
    apply arrm_bind; [unfold h_calculateNewCapacity; ak|intros _]. apply arrm_bind; [ak|intros cap].
    apply arrm_bind; [ak|intros h]. apply arrm_bind; [ak|intros _]. apply arrm_bind; [ak|intros nx]. apply arrm_bind; [ak|intros _].
    apply arrm_bind; [apply growKeys_arr|intros _]. apply arrm_bind; [apply growValues_arr|intros _].
    apply arrm_bind; [ak|intros len]. apply arrm_bind; [ak|intros _]. apply arrm_bind; [apply rehash_heads_arr|intros _]. unfold touch. ak.
  Qed.
  Lemma allocate_arr : arrm (allocateNewEntry (K:=K) (V:=V)).
  Proof. unfold allocateNewEntry. ak. Qed.

  Lemma rehash_size : keeps hsize (rehash dfltK dfltV ismap hashf).
  Proof.
    assert (forall fuel on (ol : list K) e, keeps hsize (rehash_chain (V:=V) hashf fuel on ol e)) as Hc.
    { induction fuel as [|n IH]; intros; cbn [rehash_chain]; [keep1|]. keep1; [keep1|]. keep1; [keep1|]. keep1; [unfold computeHead; keep1|].
      keep1; [by apply register_keeps|]. keep1; [unfold updateMaxHead; repeat keep1|]. keep1; [keep1|]. apply IH. }
    assert (forall n oh on (ol : list K) i, keeps hsize (rehash_heads (V:=V) hashf n oh on ol i)) as Hh.
    { induction n as [|n IH]; intros; cbn [rehash_heads]; [keep1|]. keep1; [keep1|]. keep1; [apply Hc|apply IH]. }
    unfold rehash, h_calculateNewCapacity, growKeys, growValues, touch. repeat (keep1 || apply Hh).
  Qed.

  (** base add: no new key, or a new key in the entry returned and one more in [size]. *)
  Definition quietm {A} (m : M hash A) : Prop := arrm m /\ keeps hsize m.
  Definition added s (r : res Z) s' : Prop :=
    (arr nobody s s' /\ hsize s' = hsize s) \/ exists e, r = Ok e /\ arr (eq e) s s' /\ hsize s' = hsize s + 1.
  Lemma quiet_added {A} (m : M hash A) k s r s' : quietm m -> (forall x s1, k x s1 = (r, s') -> added s1 r s') ->
    bind m k s = (r, s') -> added s r s'.
  Proof.
    intros [Ha Hz] Hk H. specialize (Ha s). specialize (Hz s). unfold bind in H. destruct (m s) as [[x|x|] s1]; cbn in *.
    - apply Hk in H as [[H1 H2]|(e & -> & H1 & H2)].
      + left. split; [by eapply arr_trans|congruence].
      + right. exists e. split; [done|]. split; [|by rewrite H2, Hz]. eapply arr_trans; [by apply arr_weak|done].
    - injection H as _ <-. left. done.
    - injection H as _ <-. left. done.
  Qed.
  Lemma pure_quiet {A} (m : M hash A) : keeps (fun s => s) m -> quietm m.
  Proof. intros H. split; [by apply pure_arr|]. intros s. by rewrite H. Qed.
  Lemma base_add_arr key s r s' : base_add dfltK dfltV ismap hashf eqf key s = (r, s') -> added s r s'.
  Proof.
    unfold base_add. apply quiet_added; [apply pure_quiet; unfold computeHead; keep1|]. intros head s1.
    apply quiet_added; [apply pure_quiet; keep1|]. intros he s2. apply quiet_added; [apply pure_quiet; keep1|]. intros fuel s3.
    apply quiet_added; [apply pure_quiet, lookup_pure|]. intros found s4.
    destruct (0 <=? found); [intros [= _ <-]; left; split; [apply arr_refl|done]|].
    apply quiet_added; [split; [apply allocate_arr|unfold allocateNewEntry; repeat keep1]|]. intros e s5.
    apply quiet_added; [apply pure_quiet; keep1|]. intros thr s6. apply quiet_added.
    { split.
      - apply arrm_if; [|ak]. apply arrm_bind; [apply rehash_arr|intros; unfold computeHead; ak].
      - keep1; [|keep1]. keep1; [apply rehash_size|unfold computeHead; keep1]. }
    intros h s7. apply quiet_added; [split; [apply arrm_keeps|]; by apply register_keeps|]. intros _ s8 H.
    unfold bind at 1 in H. destruct (wr_keys e key s8) as [w s9] eqn:E. apply wrk_arr in E as Ea. apply wrk in E as [[Hw ->]|(-> & He & ->)].
    { destruct w as [[]|x|]; [done|..]; cbn beta iota in H; injection H as _ <-; left; (split; [apply arr_refl|done]). }
    unfold updateMaxHead, touch, bind, gets, modify, ret in H. cbn in H. destruct (maxHead s8 <? h); cbn in H; injection H as <- <-; right; exists e; done.
  Qed.
  Lemma add_arr key s r s' : h_add dfltK dfltV ismap hashf eqf key s = (r, s') ->
    (arr nobody s s' /\ hsize s' = hsize s) \/ (hsize s' = hsize s + 1 /\ forall e, r = Ok e -> arr (eq e) s s').
  Proof.
    unfold h_add. intros H. unfold bind at 1 in H. cbn in H. unfold bind at 1 in H.
    destruct (base_add dfltK dfltV ismap hashf eqf key s) as [b s1] eqn:E. apply base_add_arr in E.
    destruct b as [e|x|].
    2,3: injection H as <- <-; destruct E as [?|(? & ? & _)]; [by left|done].
    unfold bind at 1 in H. cbn in H.
    destruct (ismap && negb (hsize s =? hsize s1)) eqn:Eb.
    - unfold bind in H. pose proof (wrv_dflt e s1) as Hv. assert (hsize (wr_values e dfltV s1).2 = hsize s1) as Hz.
      { assert (keeps hsize (wr_values (K:=K) (V:=V) e dfltV)) as Hk by (unfold wr_values; keep1). apply Hk. }
      destruct (wr_values e dfltV s1) as [[u|x|] s2]; cbn in H, Hv, Hz; injection H as <- <-; rewrite Hz;
      (destruct E as [[E1 E2]|(e' & Ee & E1 & E2)]; [left; split; [by eapply arr_trans|done]|right; split; [done|]]); try done.
      intros e2 [= <-]. injection Ee as <-. eapply arr_trans; [done|]. by apply arr_weak.
    - injection H as <- <-. destruct E as [[E1 E2]|(e' & [= <-] & E1 & E2)]; [by left|]. right. split; [done|]. by intros ? [= <-].
  Qed.
  Lemma put_arr key v s r s' : h_put dfltK dfltV ismap hashf eqf key v s = (r, s') ->
    (arr nobody s s' /\ hsize s' = hsize s) \/ (exists e, r = Ok e /\ arr (eq e) s s') \/ (hsize s' = hsize s + 1 /\ forall e, r <> Ok e).
  Proof.
    unfold h_put. intros H. unfold bind at 1 in H.
    destruct (h_add dfltK dfltV ismap hashf eqf key s) as [b s1] eqn:E. apply add_arr in E.
    destruct b as [e|x|].
    2,3: injection H as <- <-; destruct E as [?|[? ?]]; [by left|right; right; done].
    unfold bind in H. destruct (wr_values e v s1) as [w s2] eqn:Ew. apply wrv_arr in Ew as Ea. apply wrv in Ew as [[Hw ->]|(-> & He & ->)].
    - destruct w as [[]|x|]; [done|..]; cbn beta iota in H; injection H as <- <-; (destruct E as [?|[? ?]]; [by left|right; right; done]).
    - injection H as <- <-. right; left. exists e. split; [done|]. eapply arr_trans; [|exact Ea].
      destruct E as [[E1 _]|[_ E1]]; [by apply arr_weak|by apply E1].
  Qed.

  (** ** clear *)
  Lemma fill_cells {X} (d : X) n l r l' : fill d 0 n l = (r, l') -> n <= alen l -> r = Ok tt /\
    forall e, cell d l' e = if decide (0 <= e < n) then d else cell d l e.
  Proof.
    intros E Hn. destruct (fill_ok d 0 n l) as (l2 & E2 & Hl & Hf); [lia|pose proof (alen_nonneg l); lia|].
    rewrite E in E2. injection E2 as -> ->. split; [done|]. intros e. unfold cell. rewrite Hf. rewrite Z.add_0_l. by case_decide.
  Qed.
  Lemma clear_cells s r s' : h_clear dfltK dfltV ismap s = (r, s') -> 0 < hsize s -> 0 <= maxHead s -> 0 <= nextUnusedEntry s ->
    r = Ok tt /\ (forall e, kat s' e = if decide (0 <= e < Z.min (nextUnusedEntry s) (alen (keys s))) then dfltK else kat s e) /\
    (ismap = true -> forall e, vat s' e = if decide (0 <= e < Z.min (nextUnusedEntry s) (alen (values s))) then dfltV else vat s e).
  Proof.
    intros H Hz Hm Hu. pose proof (alen_nonneg (heads s)). pose proof (alen_nonneg (nexts s)).
    pose proof (alen_nonneg (keys s)). pose proof (alen_nonneg (values s)).
    destruct (fill_ok (-1) 0 (Z.min (alen (heads s)) (maxHead s + 1)) (heads s)) as (HH & F1 & A1 & _); [lia|lia|].
    destruct (fill_ok (-1) 0 (Z.min (alen (nexts s)) (nextUnusedEntry s)) (nexts s)) as (N & F2 & A2 & _); [lia|lia|].
    destruct (fill_ok dfltK 0 (Z.min (nextUnusedEntry s) (alen (keys s))) (keys s)) as (ks & F3 & A3 & _); [lia|lia|].
    destruct (fill_ok dfltV 0 (Z.min (nextUnusedEntry s) (alen (values s))) (values s)) as (vs & F4 & A4 & _); [lia|lia|].
    assert (exists H' u n, h_clear dfltK dfltV ismap s = (Ok tt, (mkHash (capacity s) (capThreshold s) (loadFactor s) H' N 0 (-1) 0 u n
      ks (if ismap then vs else values s) (hashFunc s) (equalFunc s)))) as (H' & u & n & E).
    { eexists _, _, _. unfold h_clear, fill_heads, fill_nexts, fill_keys, fill_values. mon. destruct (Z.ltb_spec 0 (hsize s)); [|lia].
      destruct ismap; repeat first [rewrite bind_bind | progress mon | erewrite bind_ok by (apply zoom_ok; exact F1)
        | erewrite bind_ok by (apply zoom_ok; exact F2) | erewrite bind_ok by (apply zoom_ok; exact F3)
        | erewrite bind_ok by (apply zoom_ok; exact F4)]; reflexivity. }
    rewrite E in H. injection H as <- <-. apply fill_cells in F3 as [_ F3]; [|lia]. apply fill_cells in F4 as [_ F4]; [|lia].
    split; [done|]. split; [exact F3|]. intros Em. unfold vat. cbn. rewrite Em. exact F4.
  Qed.
  Lemma clear_nothing s r s' : h_clear dfltK dfltV ismap s = (r, s') -> hsize s <= 0 -> keys s' = keys s /\ values s' = values s.
  Proof. unfold h_clear. intros H Hz. unfold bind at 1 in H. cbn in H. destruct (Z.ltb_spec 0 (hsize s)); [lia|]. by injection H as <- <-. Qed.

  (** ** forEachEntry with a consumer that removes *)
  Variable sel : Z -> bool.
  Notation body := (fun e => do! (if sel e then h_removeAt dfltK dfltV ismap e else ret tt) ; ret e).
  Definition thinned s s' (l : list Z) : Prop := arr nobody s s' /\
    exists D, sublist D (List.filter sel l) /\ Forall (wiped s') D /\ hsize s' = hsize s - alen D.
  Lemma thinned_nil s : thinned s s [].
  Proof. split; [apply arr_refl|]. exists []. split; [constructor|]. split; [constructor|]. rewrite (@alen_nil Z). lia. Qed.
  Lemma thinned_app s1 s2 s3 l1 l2 : thinned s1 s2 l1 -> thinned s2 s3 l2 -> thinned s1 s3 (l1 ++ l2).
  Proof.
    intros (A1 & D1 & S1 & W1 & Z1) (A2 & D2 & S2 & W2 & Z2). split; [by eapply arr_trans|]. exists (D1 ++ D2).
    rewrite List.filter_app. split; [by apply sublist_app|]. split; [|rewrite alen_app; lia]. apply Forall_app. split; [|done].
    eapply Forall_impl; [exact W1|]. intros e W. eapply wiped_arr; [exact A2|by intros []|exact W].
  Qed.
  Lemma body_thinned s e x s' : body e s = (Ok x, s') -> x = e /\ thinned s s' [e].
  Proof.
    intros H. apply bind_inv_ok in H as (u & s1 & E & H). injection H as <- <-. split; [done|].
    destruct (sel e) eqn:Es.
    - split; [by apply (arrm_use _ _ _ _ (removeAt_arr e) E)|]. cbn [List.filter]. rewrite Es.
      apply removeAt_gone in E as [E|[E W]].
      + exists []. split; [apply sublist_nil_l|]. split; [constructor|]. rewrite (@alen_nil Z). lia.
      + exists [e]. split; [done|]. split; [by constructor|]. change (alen [e]) with 1. lia.
    - injection E as _ <-. split; [apply arr_refl|]. exists []. split; [apply sublist_nil_l|]. split; [constructor|]. rewrite (@alen_nil Z). lia.
  Qed.
  Lemma visit_chain_thinned fuel : forall e s l s', visit_chain fuel body e s = (Ok l, s') -> thinned s s' l.
  Proof.
    induction fuel as [|n IH]; intros e s l s'; cbn [visit_chain]; [done|]. destruct (e <? 0); [intros [= <- <-]; apply thinned_nil|].
    intros H. apply bind_inv_ok in H as (nx & s1 & E & H). apply (keeps_use (fun s : hash => s)) in E; [|keep1]. subst s1.
    apply bind_inv_ok in H as (x & s1 & E & H). apply body_thinned in E as [-> T].
    apply bind_inv_ok in H as (l' & s2 & E & H). injection H as <- <-. apply IH in E. by apply (thinned_app _ _ _ [e]  l' T).
  Qed.
  Lemma visit_heads_thinned fuel : forall h hits exp s l s', visit_heads fuel body h hits exp s = (Ok l, s') -> thinned s s' l.
  Proof.
    induction fuel as [|n IH]; intros h hits exp s l s'; cbn [visit_heads]; [done|]. rewrite bind_gets.
    destruct ((h <? alen (heads s)) && (hits <? exp)); [|intros [= <- <-]; apply thinned_nil].
    intros H. apply bind_inv_ok in H as (e & s1 & E & H). apply (keeps_use (fun s : hash => s)) in E; [|keep1]. subst s1.
    rewrite bind_gets in H. apply bind_inv_ok in H as (l1 & s1 & E & H). apply visit_chain_thinned in E.
    apply bind_inv_ok in H as (l2 & s2 & E2 & H). injection H as <- <-. apply IH in E2. by eapply thinned_app.
  Qed.
  Lemma foreach_thinned s l s' : forEachEntry (fun e => if sel e then h_removeAt dfltK dfltV ismap e else ret tt) s = (Ok l, s') -> thinned s s' l.
  Proof.
    unfold forEachEntry, visit. rewrite bind_gets. destruct (hsize s =? 0); [intros [= <- <-]; apply thinned_nil|].
    rewrite bind_gets. apply visit_heads_thinned.
  Qed.

  (** ** The entry iterator *)
  Notation hit := (hit K V).
  Definition hk (t : hit) := keys (tb t).
  Definition hv (t : hit) := values (tb t).
  Lemma rd_keeps {T A} (f : hit -> T) (g : hash -> list A) i : (forall t, f (t <| tb := tb t |>) = f t) -> keeps f (on_tb (rd g i)).
  Proof. intros H t. unfold on_tb, zoom, rd. destruct (aget (g (tb t)) i); cbn; apply H. Qed.
  Lemma nextHead_loop_keeps fuel : keeps hk (nextHead_loop fuel) /\ keeps hv (nextHead_loop fuel).
  Proof.
    induction fuel as [|n [IH1 IH2]]; split; cbn [nextHead_loop]; unfold mod_it; repeat (keep1 || (apply rd_keeps; by intros [])); done.
  Qed.
  Lemma nextHead_keeps : keeps hk (nextHead (K:=K) (V:=V)) /\ keeps hv (nextHead (K:=K) (V:=V)).
  Proof. split; unfold nextHead, mod_it; repeat keep1; apply nextHead_loop_keeps. Qed.
  Lemma next_keeps : keeps hk (it_next (K:=K) (V:=V)) /\ keeps hv (it_next (K:=K) (V:=V)).
  Proof.
    split; unfold it_next, it_check, it_initialize, mod_it; repeat (keep1 || apply nextHead_keeps || (apply rd_keeps; by intros [])).
  Qed.
  Lemma next_initialized t b t' : it_next t = (Ok b, t') -> initialized (it (K:=K) (V:=V) t') = true.
  Proof.
    set (f := fun t : hit => initialized (it t)).
    assert (forall fuel, keeps f (nextHead_loop fuel)) as Hl.
    { induction fuel as [|n IH]; cbn [nextHead_loop]; unfold mod_it; repeat (keep1 || (apply rd_keeps; by intros [])); done. }
    assert (keeps f nextHead) as Hn by (unfold nextHead, mod_it; repeat (keep1 || apply Hl)).
    unfold it_next. intros H. apply bind_inv_ok in H as (u & t1 & _ & H). rewrite bind_gets in H.
    destruct (initialized (it t1)) eqn:Ei; cbn [negb] in H.
    - apply (keeps_use f) in H; [by rewrite <- Ei|]. clear H. unfold mod_it. keep1; [keep1|]. keep1; [|keep1; [apply Hn|keep1]].
      keep1; [apply keeps_modify; intros t2; unfold f; cbn; by destruct (isRemoved (it t2))|]. repeat (keep1 || (apply rd_keeps; by intros [])).
    - apply bind_inv_ok in H as (u2 & t2 & E & H). injection H as _ <-. unfold it_initialize in E.
      apply bind_inv_ok in E as (u3 & t3 & _ & E). by injection E as _ <-.
  Qed.
  Lemma remove_vwiped t x t' : it_remove dfltV ismap t = (Ok x, t') -> initialized (it t) = true ->
    hk t' = hk t /\ fades dfltV nobody (hv t) (hv t') /\ (ismap = true -> cell dfltV (hv t') (ientry (it t)) = dfltV).
  Proof.
    unfold it_remove. intros H Hi. apply bind_inv_ok in H as (u & t1 & E & H).
    apply (keeps_use (fun t : hit => t)) in E; [|unfold it_check; repeat keep1]. subst t1. rewrite bind_gets in H.
    destruct (isRemoved (it t)); [done|]. rewrite bind_gets, Hi in H. cbn [negb] in H. unfold ret at 1 in H.
    apply bind_inv_ok in H as (u1 & t1 & [= _ <-] & H). rewrite bind_gets in H. set (e := ientry (it t)) in *.
    apply bind_inv_ok in H as (nx & t1 & E & H). pose proof (keeps_use hk _ _ _ _ ltac:(apply rd_keeps; by intros []) E) as K1.
    pose proof (keeps_use hv _ _ _ _ ltac:(apply rd_keeps; by intros []) E) as V1. clear E.
    apply bind_inv_ok in H as (u2 & t2 & E & H). unfold mod_it, modify in E. injection E as _ <-. rewrite bind_gets in H.
    apply bind_inv_ok in H as (u3 & t3 & E & H).
    assert (forall f : hash -> hash, True) as _ by done.
    unfold on_tb at 1, zoom in E. match type of E with context [unlink ?a ?b ?c ?x] => destruct (unlink a b c x) as [ru su] eqn:Eu end.
    apply (keeps_use keys) in Eu as Ku; [|unfold unlink, wr_heads, wr_nexts; repeat keep1].
    apply (keeps_use values) in Eu as Vu; [|unfold unlink, wr_heads, wr_nexts; repeat keep1]. injection E as _ <-.
    apply bind_inv_ok in H as (u4 & t4 & E & H). unfold on_tb at 1, zoom in E.
    match type of E with (let '(r, t) := ?m ?x in _) = _ => destruct (m x) as [rw sw] eqn:Ew end.
    apply (keeps_use keys) in Ew as Kw; [|unfold wr_nexts; repeat keep1].
    apply (keeps_use values) in Ew as Vw; [|unfold wr_nexts; repeat keep1]. injection E as _ <-.
    apply bind_inv_ok in H as (u5 & t5 & E & H). unfold on_tb at 1, zoom in E. cbn in E.
    destruct (removeValue dfltV ismap e sw) as [rv sv] eqn:Er. injection E as -> <-.
    apply bind_inv_ok in H as (u6 & t6 & E & H). unfold mod_it, modify in E. injection E as _ <-.
    unfold on_tb, zoom, touch, modify in H. injection H as _ <-. unfold hk, hv. cbn in *.
    unfold removeValue in Er. destruct ismap eqn:Em.
    - destruct u5. apply wrv in Er as [[? _]|(_ & Hr & ->)]; [done|]. cbn. unfold hk, hv in *.
      rewrite Vw, Vu, V1 in *. split; [congruence|]. split.
      + intros i. rewrite cell_upd by done. case_decide; auto.
      + intros _. rewrite cell_upd by done. by rewrite decide_True.
    - injection Er as _ <-. unfold hk, hv in *. rewrite Vw, Vu, V1. split; [congruence|]. split; [apply fades_refl|done].
  Qed.
  Lemma iterate_loop_cells n : forall t l b t', iterate_loop dfltV ismap n sel t = (Ok (l, b), t') ->
    hk t' = hk t /\ fades dfltV nobody (hv t) (hv t') /\
    (ismap = true -> Forall (fun e => cell dfltV (hv t') e = dfltV) (List.filter sel l)).
  Proof.
    induction n as [|n IH]; intros t l b t'; cbn [iterate_loop]; [intros [= <- <- <-]; split; [done|]; split; [apply fades_refl|constructor]|].
    intros H. apply bind_inv_ok in H as (c & t1 & E & H). apply (keeps_use hk) in E as Ek; [|apply next_keeps].
    apply (keeps_use hv) in E as Ev; [|apply next_keeps]. apply next_initialized in E. destruct c.
    2:{ injection H as <- <- <-. rewrite Ek, Ev. split; [done|]. split; [apply fades_refl|constructor]. }
    unfold it_currentEntry in H. rewrite bind_gets in H. apply bind_inv_ok in H as (u & t2 & E2 & H).
    apply bind_inv_ok in H as ([l' b'] & t3 & E3 & H). injection H as <- <- <-. apply IH in E3 as (K3 & V3 & W3). cbn [List.filter].
    set (e := ientry (it t1)) in *. destruct (sel e).
    - apply remove_vwiped in E2 as (K2 & V2 & W2); [|done]. split; [congruence|]. rewrite <- Ev. split; [by eapply fades_trans|].
      intros Em. constructor; [|by apply W3]. destruct (V3 e) as [[]|[-> | ->]]; [by apply W2|done].
    - injection E2 as _ <-. split; [congruence|]. rewrite <- Ev. done.
  Qed.
  Lemma iterate_cells n s l b s' : iterate dfltV ismap n sel s = (Ok (l, b), s') ->
    keys s' = keys s /\ fades dfltV nobody (values s) (values s') /\
    (ismap = true -> Forall (fun e => vat s' e = dfltV) (List.filter sel l)).
  Proof.
    unfold iterate. intros H. destruct ((do! it_reset; iterate_loop dfltV ismap n sel) (mkHit s iter0)) as [r t] eqn:E.
    injection H as -> <-. unfold it_reset in E. rewrite bind_bind, bind_gets in E. unfold mod_it in E. rewrite bind_modify in E.
    apply iterate_loop_cells in E. done.
  Qed.
End Held.

Section Release.
  Context {K V : Type}.
  Variables (dfltK : K) (dfltV : V) (ismap : bool) (hashf : Z -> K -> Z)
          (eqf : Z -> K -> K -> bool) (ok : K -> Prop).
  Notation hash := (hash K V).
  Notation abs := (abs K V).
  Notation hop := (hop K V).
  Notation hout := (hout K V).
  Notation call := (hop * res hout)%type.
  Notation inv := (@inv K V ismap hashf eqf ok).
  Notation hstep := (hstep dfltK dfltV ismap hashf eqf).
  Notation abs_step := (abs_step dfltV).
  Notation permitted := (permitted ismap hashf eqf ok).
  Notation reachable := (reachable dfltK dfltV ismap hashf eqf ok).
  Notation kat := (kat (V:=V) dfltK).
  Notation vat := (vat (K:=K) dfltV).
  Notation arr := (arr dfltK dfltV).
  Notation wiped := (wiped dfltK dfltV ismap).
  Implicit Types (s : hash) (a : abs).

  Notation arrm := (arrm dfltK dfltV).
  Lemma visit_arr {A} (f : Z -> M hash A) : (forall e, arrm (f e)) -> arrm (visit f).
  Proof.
    intros Hf.
    assert (forall n e, arrm (visit_chain n f e)) as Hc.
    { induction n as [|n IH]; intros e; cbn [visit_chain]; [apply arrm_keeps; keep1|]. apply arrm_if; [apply arrm_keeps; keep1|].
      apply arrm_bind; [apply arrm_keeps; keep1|intros nx]. apply arrm_bind; [apply Hf|intros x].
      apply arrm_bind; [apply IH|intros l]. apply arrm_keeps; keep1. }
    assert (forall n h i j, arrm (visit_heads n f h i j)) as Hh.
    { induction n as [|n IH]; intros h i j; cbn [visit_heads]; [apply arrm_keeps; keep1|]. apply arrm_bind; [apply arrm_keeps; keep1|intros len].
      apply arrm_if; [|apply arrm_keeps; keep1]. apply arrm_bind; [apply arrm_keeps; keep1|intros e].
      apply arrm_bind; [apply arrm_keeps; keep1|intros n']. apply arrm_bind; [apply Hc|intros l].
      apply arrm_bind; [apply IH|intros l']. apply arrm_keeps; keep1. }
    unfold visit. apply arrm_bind; [apply arrm_keeps; keep1|intros n]. apply arrm_if; [apply arrm_keeps; keep1|].
    apply arrm_bind; [apply arrm_keeps; keep1|intros fuel]. apply Hh.
  Qed.
  Lemma lookupEntry_arr key : arrm (lookupEntry hashf eqf key).
  Proof.
    unfold lookupEntry, computeHead. apply arrm_bind; [apply arrm_keeps; keep1|intros h]. apply arrm_bind; [apply arrm_keeps; keep1|intros e].
    apply arrm_bind; [apply arrm_keeps; keep1|intros n]. apply pure_arr, lookup_pure.
  Qed.
  Lemma out_arr {A B} (f : A -> B) (m : M hash A) : arrm m -> arrm (out_map f m).
  Proof. intros H. apply arrm_bind; [done|intros x; apply arrm_keeps; keep1]. Qed.
  Lemma idle_arr o : query o \/ (exists f, o = HSetHash f \/ o = HSetEq f) -> arrm (hstep o).
  Proof.
    intros H. destruct o; cbn [Hash_Model.hstep]; try (exfalso; by destruct H as [H|(f & [H|H])]);
      try (apply arrm_keeps; keep1; fail); apply out_arr; unfold setHashMethod, setEqMethod, h_get, h_getOrDefault, h_getValueAtOrDefault;
      try apply lookupEntry_arr; try (apply arrm_keeps; repeat keep1; fail);
      try (apply arrm_bind; [apply lookupEntry_arr|intros e; apply arrm_keeps; repeat keep1]; fail).
    - apply visit_arr. intros e. apply arrm_keeps; repeat keep1.
    - apply visit_arr. intros e. apply arrm_keeps; repeat keep1.
    - apply visit_arr. intros e. apply arrm_keeps; repeat keep1.
  Qed.

  Definition unused a e : Prop := live a !! e = None /\ reserved a !! e = None.
  (** What a call does to the entries not in use afterwards. *)
  Definition frees {X} (d : X) (f : hash -> Z -> X) a a' s s' : Prop := forall e, unused a' e ->
    f s' e = d \/ (unused a e /\ f s' e = f s e).
  Definition both a a' s s' : Prop := frees dfltK kat a a' s s' /\ (ismap = true -> frees dfltV vat a a' s s').

  Lemma arr_both P a a' s s' : arr P s s' -> (forall e, P e -> unused a' e -> False) ->
    (forall e, unused a' e -> unused a e \/ wiped s' e) -> both a a' s s'.
  Proof.
    intros [H1 H2] HP HU. split; [|intros Em]; intros e He.
    - destruct (HU e He) as [U|[W _]]; [|auto]. destruct (H1 e) as [HPe|[E|E]]; [destruct (HP e HPe He)|auto|auto].
    - destruct (HU e He) as [U|[_ W]]; [|auto]. destruct (H2 e) as [HPe|[E|E]]; [destruct (HP e HPe He)|auto|auto].
  Qed.
  Lemma same_both a s s' : arr nobody s s' -> both a a s s'.
  Proof. intros H. apply (arr_both nobody); [done|by intros ? []|auto]. Qed.
  Lemma reach_size a s : reachable a s -> hsize s = Z.of_nat (size (live a)).
  Proof. intros (C & fr & I)%reachable_inv. apply I. Qed.
  Lemma released_unused l a e : unused (fold_left release l a) e -> unused a e \/ e ∈ l.
  Proof.
    intros [U1 U2]. pose proof (released_live l a e) as H1. pose proof (released_reserved l a) as H2. unfold released in *.
    rewrite H2 in U2. rewrite U1 in H1. case_decide; [by right|]. left. done.
  Qed.
  Lemma released_size l : forall a, NoDup l -> (forall e, e ∈ l -> is_Some (live a !! e)) ->
    Z.of_nat (size (live (fold_left release l a))) = Z.of_nat (size (live a)) - alen l.
  Proof.
    induction l as [|x l IH]; intros a ND H; cbn [fold_left]; [rewrite (@alen_nil Z); lia|]. apply NoDup_cons in ND as [Hx ND].
    destruct (H x) as [kv Hkv]; [apply elem_of_list_here|]. rewrite IH; [|done|].
    - cbn. assert (size (delete x (live a)) + 1 = size (live a))%nat as Hs.
      { rewrite <- (insert_delete (live a) x kv Hkv) at 2. rewrite map_size_insert_None by apply lookup_delete. lia. }
      change (alen (x :: l)) with (Z.of_nat (S (length l))). unfold alen. lia.
    - intros e He. cbn. rewrite lookup_delete_ne; [apply H; by apply elem_of_list_further|]. intros ->. done.
  Qed.

  Lemma out_cases {A B} (f : A -> B) (m : M hash A) s r s' : out_map f m s = (r, s') ->
    exists r0, m s = (r0, s') /\ r = match r0 with Ok x => Ok (f x) | Exn x => Exn x | Loop => Loop end.
  Proof. unfold out_map, bind, ret. destruct (m s) as [[x|x|] s1]; intros [= <- <-]; eauto. Qed.
  Lemma hand_unused a e k v e' : unused (hand_out e k v a) e' -> unused a e' /\ e <> e'.
  Proof. intros [H1 H2]. cbn in *. apply lookup_insert_None in H1 as [H1 H3]. done. Qed.

  Lemma step_frees a s o r s' : reachable a s -> permitted a o -> hstep o s = (r, s') -> full_clear a (o, r) ->
    (no_iterator_remove (o, r) -> frees dfltK kat a (abs_step a (o, r)) s s') /\
    (put_in_use a (o, r) -> ismap = true -> frees dfltV vat a (abs_step a (o, r)) s s').
  Proof.
    intros R P E FC. destruct (serve _ _ _ _ _ _ _ _ _ _ _ R P E) as [An R'].
    pose proof (reach_size _ _ R) as Z1. pose proof (reach_size _ _ R') as Z2.
    assert (both a (abs_step a (o, r)) s s' -> (no_iterator_remove (o, r) -> frees dfltK kat a (abs_step a (o, r)) s s') /\
      (put_in_use a (o, r) -> ismap = true -> frees dfltV vat a (abs_step a (o, r)) s s')) as Bo by (intros [B1 B2]; auto).
    destruct o; try (apply Bo, same_both; eapply arrm_use; [|exact E]; apply idle_arr; by left).
    - (* add *)
      apply Bo. apply out_cases in E as (r0 & E & ->). apply add_arr in E. destruct r0 as [e|x|]; cbn in Z2 |- *; [|apply same_both; destruct E as [[E _]|[E _]]; [done|lia]..].
      assert (arr (eq e) s s') as A by (destruct E as [[E _]|[_ E]]; [by apply arr_weak|by apply E]).
      destruct (live a !! e) as [kv|] eqn:El.
      + apply (arr_both (eq e)); [done|intros ? <- [U _]; congruence|auto].
      + apply (arr_both (eq e)); [done|intros ? <- U; apply hand_unused in U as [_ U]; done|]. intros e' U. apply hand_unused in U as [U _]. auto.
    - (* put *)
      apply Bo. apply out_cases in E as (r0 & E & ->). apply put_arr in E. destruct r0 as [e|x|]; cbn in Z2 |- *;
        [|apply same_both; destruct E as [[E _]|[(? & ? & _)|[E _]]]; [done|done|lia]..].
      assert (arr (eq e) s s') as A by (destruct E as [[E _]|[(? & [= <-] & E)|[_ E]]]; [by apply arr_weak|done|by destruct (E e)]).
      destruct (live a !! e) as [[k' v']|] eqn:El.
      + apply (arr_both (eq e)); [done| |].
        * intros ? <- [U _]. cbn in U. by rewrite lookup_insert in U.
        * intros e' [U1 U2]. left. cbn in *. apply lookup_insert_None in U1 as [U1 _]. done.
      + apply (arr_both (eq e)); [done|intros ? <- U; apply hand_unused in U as [_ U]; done|]. intros e' U. apply hand_unused in U as [U _]. auto.
    - (* remove *)
      apply Bo. apply out_cases in E as (r0 & E & ->).
      assert (arr nobody s s') as A by (eapply arrm_use; [apply remove2_arr|exact E]).
      destruct r0 as [e|x|]; [|by apply same_both..]. cbn. destruct (Z.leb_spec 0 e); [|by apply same_both].
      pose proof (remove_wiped _ _ _ _ _ _ _ _ _ E ltac:(lia)) as W.
      apply (arr_both nobody); [done|by intros ? []|]. intros e' [U1 U2]. cbn in *. destruct (decide (e' = e)) as [->|]; [by right|].
      left. rewrite lookup_delete_ne in U1 by done. done.
    - (* removeAt *)
      apply Bo. apply out_cases in E as (r0 & E & ->).
      assert (arr nobody s s') as A by (eapply arrm_use; [apply removeAt_arr|exact E]).
      destruct r0 as [u|x|]; [|by apply same_both..]. cbn in Z2 |- *. destruct (live a !! e) as [kv|] eqn:El; [|by apply same_both].
      assert (wiped s' e) as W.
      { apply removeAt_gone in E as [E|[_ W]]; [|done]. exfalso. cbn in Z2.
        pose proof (released_size [e] a) as Hz. cbn in Hz. rewrite Hz in Z2; [change (alen [e]) with 1 in Z2; lia|apply NoDup_singleton|].
        intros e0 ->%elem_of_list_singleton. eauto. }
      apply (arr_both nobody); [done|by intros ? []|]. intros e' [U1 U2]. cbn in *. destruct (decide (e' = e)) as [->|]; [by right|].
      left. rewrite lookup_delete_ne in U1 by done. done.
    - (* reserve *)
      apply Bo. apply out_cases in E as (r0 & E & ->).
      assert (arr nobody s s') as A.
      { eapply arrm_use; [|exact E]. unfold removeAtAndReserve. apply arrm_bind; [apply arrm_keeps; keep1|intros k].
        apply arrm_bind; [apply remove2_arr|intros]. apply arrm_keeps; keep1. }
      destruct r0 as [u|x|]; [|by apply same_both..]. cbn. destruct (live a !! e) as [kv|] eqn:El; [|by apply same_both].
      apply (arr_both nobody); [done|by intros ? []|]. intros e' [U1 U2]. cbn in *. apply lookup_insert_None in U2 as [U2 Ne].
      left. rewrite lookup_delete_ne in U1 by done. done.
    - (* free *)
      apply Bo. apply out_cases in E as (r0 & E & ->).
      assert (arr nobody s s') as A by (eapply arrm_use; [apply free_arr|exact E]).
      destruct r0 as [u|x|]; [|by apply same_both..]. cbn. apply free_wiped in E.
      apply (arr_both nobody); [done|by intros ? []|]. intros e' [U1 U2]. cbn in *. destruct (decide (e' = e)) as [->|]; [by right|].
      left. rewrite lookup_delete_ne in U2 by done. done.
    - (* putValueAt *)
      apply out_cases in E as (r0 & E & ->). pose proof (wrv_arr dfltK dfltV _ _ _ _ _ E) as A.
      assert (forall e', unused (abs_step a (HPutValueAt e v, match r0 with Ok _ => Ok HUnit | Exn x => Exn x | Loop => Loop end)) e' -> unused a e') as HU.
      { intros e'. destruct r0; try done. cbn. intros [U1 U2]. cbn in *. by rewrite lookup_alter_None in U1, U2. }
      split.
      + intros _ e' U. right. split; [by apply HU|]. apply wrv in E as [[_ ->]|(_ & _ & ->)]; done.
      + intros PU _ e' U. apply wrv in E as [[_ ->]|(-> & He & ->)]; [right; split; [by apply HU|done]|].
        cbn in PU. right. apply HU in U. split; [done|]. unfold HeldM_Proofs.vat. cbn. rewrite cell_upd by done.
        rewrite decide_False; [done|]. intros ->. destruct U as [U1 U2]. destruct PU as [[? ?]|[? ?]]; congruence.
    - (* clear *)
      apply Bo. apply out_cases in E as (r0 & E & ->). cbn in FC. pose proof (reachable_inv _ _ R) as (C & fr & I). pose proof (i_core _ _ _ _ I) as Ic.
      destruct (decide (live a = ∅)) as [El|El].
      + assert (hsize s <= 0) as Hz by (rewrite Z1, El, map_size_empty; lia). apply clear_nothing in E as [E1 E2]; [|done].
        assert (forall e, unused a e) as U by (intros e; unfold unused; rewrite (FC El), El; done).
        destruct r0; (apply (arr_both nobody); [by apply arr_same|by intros ? []|auto]).
      + assert (0 < hsize s) as Hz.
        { rewrite Z1. assert (size (live a) <> 0%nat); [|lia]. intros H0. by apply map_size_empty_inv in H0. }
        apply clear_cells in E as (-> & E1 & E2); [|done|apply Ic|apply Ic].
        assert (forall e, unused a e \/ (0 <= e < nextUnusedEntry s /\ e < capacity s)) as HW.
        { intros e. unfold unused. pose proof (c_rng _ _ _ _ _ Ic e) as Hr. destruct (live a !! e) as [x|]; [right|].
          { assert (0 <= e < capacity s /\ e < nextUnusedEntry s) by (apply Hr; left; eauto). lia. }
          destruct (reserved a !! e) as [x|]; [right|by left]. assert (0 <= e < capacity s /\ e < nextUnusedEntry s) by (apply Hr; right; left; eauto). lia. }
        split; [|intros Em]; intros e _.
        * rewrite E1, (c_k _ _ _ _ _ Ic). case_decide; [by left|]. right. split; [|done]. destruct (HW e); [done|lia].
        * rewrite (E2 Em), (c_v _ _ _ _ _ Ic Em). case_decide; [by left|]. right. split; [|done]. destruct (HW e); [done|lia].
    - (* iterate *)
      apply out_cases in E as (r0 & E & ->). destruct r0 as [[l b]|x|]; [|done..]. apply iterate_cells in E as (E1 & E2 & E3). cbn. split.
      + intros ->. intros e U. right. split; [done|]. unfold HeldM_Proofs.kat. by rewrite E1.
      + intros _ Em e U. apply released_unused in U as [U|U].
        * destruct (E2 e) as [[]|[H|H]]; [right; done|left; done].
        * left. specialize (E3 Em). rewrite Forall_forall in E3. by apply E3.
    - (* forEachEntry, removing *)
      apply Bo. apply out_cases in E as (r0 & E & ->). destruct r0 as [l|x|]; [|done..]. cbn in An, Z2 |- *. destruct An as [[ND Hl] _].
      apply foreach_thinned in E as (A & D & SD & WD & ZD).
      assert (NoDup (List.filter sel l)) as ND2 by (by apply NoDup_ListNoDup, List.NoDup_filter, NoDup_ListNoDup).
      rewrite released_size in Z2; [|done|intros e [He _]%elem_filter; by apply Hl].
      assert (D ≡ₚ List.filter sel l) as HD.
      { apply submseteq_Permutation_length_le; [|by apply sublist_submseteq]. unfold alen in *. lia. }
      apply (arr_both nobody); [done|by intros ? []|]. intros e U. apply released_unused in U as [U|U]; [auto|]. right.
      rewrite Forall_forall in WD. apply WD. by rewrite HD.
    - (* _setHashMethod *)
      apply Bo. apply (arr_both nobody); [eapply arrm_use; [apply idle_arr; right; by exists h; left|exact E]|by intros ? []|]. intros e U. left.
      destruct h, r; done.
    - (* _setEqMethod *)
      apply Bo. apply (arr_both nobody); [eapply arrm_use; [apply idle_arr; right; by exists q; right|exact E]|by intros ? []|]. intros e U. left.
      destruct q, r; done.
  Qed.

  Notation reached allow := (reached dfltK dfltV ismap hashf eqf allow ok).
  Lemma reached_reachable allow a s : reached allow a s -> reachable a s.
  Proof.
    induction 1 as [|a s o r s' _ IH P E _|a1 s1 a2 s2 s' _ IH1 _ IH2 Eh Eq E]; [by apply reach_new|by eapply reach_call|]. eapply reach_copy; [exact IH1|exact IH2|done..].
  Qed.
  Fixpoint along (allow : abs -> call -> Prop) a (h : list call) : Prop :=
    match h with [] => True | c :: h' => allow a c /\ along allow (abs_step a c) h' end.
  Lemma reached_steps allow a s h a' s' : reached allow a s -> steps dfltK dfltV ismap hashf eqf ok a s h a' s' -> along allow a h ->
    reached allow a' s'.
  Proof. intros R H. induction H as [|a s o r s1 h a' s' P E H IH]; [done|]. intros [A1 A2]. apply IH; [|done]. by eapply reached_call. Qed.
  Lemma new_cells cap l s e : new_Hash dfltK dfltV ismap cap l = Ok s -> kat s e = dfltK /\ vat s e = dfltV.
  Proof.
    unfold new_Hash. destruct (_ || _); [done|]. destruct (lf_bad l); [done|]. cbv zeta. destruct (array_create_with _ _ _ _); [|done..].
    unfold array_create, anew. destruct (nextPowerOf2 cap <? 0); [done|]. destruct ((if ismap then _ else _) <? 0); [done|].
    intros [= <-]. unfold HeldM_Proofs.kat, HeldM_Proofs.vat, cell. cbn. split.
    - destruct (aget _ e) as [x|] eqn:E; [|done]. by apply aget_replicate_inv in E as [-> _].
    - destruct (aget _ e) as [x|] eqn:E; [|done]. by apply aget_replicate_inv in E as [-> _].
  Qed.
  Lemma copy_cells a1 s1 a2 s2 s' : reachable a1 s1 -> reachable a2 s2 -> h_copyFrom dfltK dfltV ismap s2 s1 = (Ok tt, s') ->
    forall e, kat s' e = kat s2 e /\ (ismap = true -> vat s' e = vat s2 e).
  Proof.
    intros (C1 & fr1 & I1)%reachable_inv (C2 & fr2 & I2)%reachable_inv E e.
    rewrite (copyFrom_ok _ _ _ _ _ _ _ _ _ _ (i_core _ _ _ _ I1) (i_core _ _ _ _ I2)) in E. injection E as <-.
    unfold HeldM_Proofs.kat, HeldM_Proofs.vat, s_copied. cbn. rewrite cell_pad. split; [done|]. intros ->. by rewrite cell_pad.
  Qed.
  Lemma keys_released a s : reached (fun a c => full_clear a c /\ no_iterator_remove c) a s -> forall e, unused a e -> kat s e = dfltK.
  Proof.
    induction 1 as [cap l s E|a s o r s' R IH P E [A1 A2]|a1 s1 a2 s2 s' R1 IH1 R2 IH2 Eh Eq E]; intros e U.
    - by eapply new_cells.
    - destruct (step_frees _ _ _ _ _ (reached_reachable _ _ _ R) P E A1) as [F _]. destruct (F A2 e U) as [?|[U' ->]]; auto.
    - destruct (copy_cells _ _ _ _ _ (reached_reachable _ _ _ R1) (reached_reachable _ _ _ R2) E e) as [-> _]. by apply IH2.
  Qed.
  Lemma values_released a s : ismap = true -> reached (fun a c => full_clear a c /\ put_in_use a c) a s -> forall e, unused a e -> vat s e = dfltV.
  Proof.
    intros Em. induction 1 as [cap l s E|a s o r s' R IH P E [A1 A2]|a1 s1 a2 s2 s' R1 IH1 R2 IH2 Eh Eq E]; intros e U.
    - by eapply new_cells.
    - destruct (step_frees _ _ _ _ _ (reached_reachable _ _ _ R) P E A1) as [_ F]. destruct (F A2 Em e U) as [?|[U' ->]]; auto.
    - destruct (copy_cells _ _ _ _ _ (reached_reachable _ _ _ R1) (reached_reachable _ _ _ R2) E e) as [_ ->]; [|done]. by apply IH2.
  Qed.
End Release.
