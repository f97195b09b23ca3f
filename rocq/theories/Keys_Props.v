(** C72: the indexed sets and maps with their default functions, for every key type other than
    float and double (C43). *)
From Verif Require Import JBase JLemmas JHist Num_Model Types_Model Hash_Model Hash_Spec Hash_Proofs Hash_Main Hash_Props
  Keys_Model Keys_Spec.

Section Leib.
  Context {K V : Type} `{Countable K} (dfltK : K) (dfltV : V) (ismap : bool).
  Variables (hashf : Z -> K -> Z) (eqf : Z -> K -> K -> bool) (ok : K -> Prop).
  Hypothesis L : forall q a b, eqf q a b = true <-> a = b.
  Notation hstep := (hstep dfltK dfltV ismap hashf eqf).
  Notation new := (new_Hash dfltK dfltV ismap).

  Lemma value_good h q : good hashf eqf ok h q.
  Proof.
    split; [|split; [|split]].
    - intros k _. by apply L.
    - intros k k' _ _ ->%L. by apply L.
    - intros k1 k2 k3 _ _ _ ->%L ->%L. by apply L.
    - by intros k k' _ _ ->%L.
  Qed.
  Lemma content_kmap h : forall k, content dfltV (eqf 0) h k = kmap_of dfltV h !! k.
  Proof.
    unfold content, kmap_of. assert (forall k, (fun _ : K => @None V) k = (∅ : gmap K V) !! k) as H0 by (intros k; by rewrite lookup_empty).
    revert H0. generalize (fun _ : K => @None V) as f. generalize (∅ : gmap K V) as m.
    induction h as [|c h IH]; intros m f Hf; cbn; [done|]. apply IH. clear IH. intros k.
    assert (forall a b, eqf 0 a b = bool_decide (a = b)) as Eb.
    { intros a b. destruct (eqf 0 a b) eqn:E; [apply L in E; by rewrite bool_decide_true|].
      rewrite bool_decide_false; [done|]. intros Hab. apply (L 0) in Hab. congruence. }
    destruct c as [o [x|x|]]; destruct o; cbn; try done.
    - rewrite Eb, Hf. destruct (bool_decide_reflect (k = k0)) as [->|N].
      + destruct (m !! k0) eqn:E; [by rewrite E|]. by rewrite lookup_insert.
      + destruct (m !! k0); [done|]. by rewrite lookup_insert_ne.
    - rewrite Eb, Hf. destruct (bool_decide_reflect (k = k0)) as [->|N]; [by rewrite lookup_insert|by rewrite lookup_insert_ne].
    - rewrite Eb, Hf. destruct (bool_decide_reflect (k = k0)) as [->|N]; [by rewrite lookup_delete|by rewrite lookup_delete_ne].
  Qed.
  Lemma live_size (live : gmap Z (K * V)) (m : gmap K V) :
    (forall e e' k v v', live !! e = Some (k, v) -> live !! e' = Some (k, v') -> e = e') ->
    (forall k, is_Some (m !! k) <-> exists e v, live !! e = Some (k, v)) -> size live = size m.
  Proof.
    intros U Hm. rewrite <- (size_dom m). assert (NoDup (fst <$> (snd <$> map_to_list live))) as N.
    { assert (forall l : list (Z * (K * V)), NoDup l.*1 -> (forall p, p ∈ l -> live !! p.1 = Some p.2) -> NoDup (fst <$> (snd <$> l))) as G.
      { induction l as [|[e [k v]] l IH]; intros N Hl; [constructor|]. apply NoDup_cons in N as [N1 N2]. cbn. constructor.
        - intros ([k' v'] & -> & ([e' p] & Ep & Hp)%elem_of_list_fmap)%elem_of_list_fmap. cbn in *. subst p.
          apply N1. pose proof (Hl (e, (k', v)) ltac:(by left)) as E1. pose proof (Hl (e', (k', v')) ltac:(by right)) as E2. cbn in *.
          rewrite (U e e' k' v v' E1 E2). apply elem_of_list_fmap. by exists (e', (k', v')).
        - apply IH; [done|]. intros p Hp. apply Hl. by right. }
      apply G; [apply NoDup_fst_map_to_list|]. intros [e p] Hp. by apply elem_of_map_to_list in Hp. }
    assert (dom m = list_to_set (fst <$> (snd <$> map_to_list live))) as ->.
    { apply sets.set_eq. intros k. rewrite elem_of_dom, Hm, elem_of_list_to_set. split.
      - intros (e & v & E). apply elem_of_list_fmap. exists (k, v). split; [done|]. apply elem_of_list_fmap. exists (e, (k, v)).
        split; [done|]. by apply elem_of_map_to_list.
      - intros ([k' v'] & -> & ([e' p] & Ep & Hp)%elem_of_list_fmap)%elem_of_list_fmap. cbn in Ep. subst p.
        apply elem_of_map_to_list in Hp. by exists e', v'. }
    rewrite size_list_to_set by done. rewrite !fmap_length. done.
  Qed.

  (** What the queries return. *)
  Definition value_map : Prop := forall cap l s0 h s k, new cap l = Ok s0 -> hist hstep s0 h s ->
    Forall (fun c => by_key ismap ok c.1) h -> ok k ->
    (hstep HSize s).1 = Ok (HZ (Z.of_nat (size (kmap_of dfltV h)))) /\
    (hstep (HContains k) s).1 = Ok (HB (bool_decide (is_Some (kmap_of dfltV h !! k)))) /\
    (ismap = true ->
      (hstep (HGet k) s).1 = match kmap_of dfltV h !! k with Some v => Ok (HV v) | None => Exn KeyNotFound end /\
      forall d, (hstep (HGetOrDefault k d) s).1 = Ok (HV (default d (kmap_of dfltV h !! k)))).
  Lemma value_map_ok : value_map.
  Proof.
    intros cap l s0 h s k E Hh F Ho. split; [|split].
    - assert (Forall (fun c => by_key ismap (fun _ => True) c.1) h) as F'.
      { eapply Forall_impl; [exact F|]. intros [o r]. destruct o; cbn; tauto. }
      assert (good hashf eqf (fun _ => True) 0 0) as G.
      { split; [|split; [|split]].
        - intros k0 _. by apply L.
        - intros k0 k' _ _ ->%L. by apply L.
        - intros k1 k2 k3 _ _ _ ->%L ->%L. by apply L.
        - by intros k0 k' _ _ ->%L. }
      destruct (content_agrees _ _ _ _ _ _ _ _ _ _ _ E G Hh F') as (a & R & _ & E2 & Ag).
      destruct (C34_size dfltK dfltV ismap hashf eqf _ a s R) as [-> _]. do 3 f_equal. apply live_size.
      + intros e e' k0 v v' E1 E1'.
        eapply (reach_same dfltK dfltV ismap hashf eqf _ a s k0); [done|done| |]; eexists _, _; (split; [done|by apply L]).
      + intros k0. rewrite <- content_kmap. specialize (Ag k0 Logic.I). destruct (content dfltV (eqf 0) h k0) as [v|].
        * destruct Ag as (e & k' & El & <-%L). split; [intros _; by exists e, v|intros _; by eexists].
        * split; [by intros []|]. intros (e & v & El). apply Ag in El. assert (eqf (eqn a) k0 k0 = true) by (by apply L). congruence.
    - pose proof (C30_last_write_wins _ _ _ _ _ ok _ _ _ _ _ k E (value_good _ _) Hh F Ho) as W. rewrite content_kmap in W.
      destruct (kmap_of dfltV h !! k) as [v|]; destruct W as [W _]; [rewrite bool_decide_true by (by eexists)|rewrite bool_decide_false by (by intros [])]; done.
    - intros Em. pose proof (C30_last_write_wins _ _ _ _ _ ok _ _ _ _ _ k E (value_good _ _) Hh F Ho) as W. rewrite content_kmap in W.
      destruct (kmap_of dfltV h !! k) as [v|]; destruct W as [_ W]; by apply W.
  Qed.
End Leib.

(** size, containsKey, get and getOrDefault are those of the finite map the calls describe,
    with keys compared by value. *)
Theorem C72_int_keys {V} (dfltV : V) ismap : value_map 0 dfltV ismap int_hash int_eq is_i32.
Proof. apply value_map_ok. intros q a b. apply Z.eqb_eq. Qed.
(** byte, short and char keys are ints in the range of the type. *)
Theorem C72_byte_keys {V} (dfltV : V) ismap : value_map 0 dfltV ismap int_hash int_eq is_i8.
Proof. apply value_map_ok. intros q a b. apply Z.eqb_eq. Qed.
Theorem C72_short_keys {V} (dfltV : V) ismap : value_map 0 dfltV ismap int_hash int_eq is_i16.
Proof. apply value_map_ok. intros q a b. apply Z.eqb_eq. Qed.
Theorem C72_char_keys {V} (dfltV : V) ismap : value_map 0 dfltV ismap int_hash int_eq is_u16.
Proof. apply value_map_ok. intros q a b. apply Z.eqb_eq. Qed.
Theorem C72_long_keys {V} (dfltV : V) ismap : value_map 0 dfltV ismap lng_hash lng_eq is_i64.
Proof. apply value_map_ok. intros q a b. apply Z.eqb_eq. Qed.
Theorem C72_bool_keys {V} (dfltV : V) ismap : value_map false dfltV ismap bool_hash bool_eq (fun _ => True).
Proof. apply value_map_ok. intros q a b. apply Bool.eqb_true_iff. Qed.
(** null is a key like any other. *)
Theorem C72_string_keys {V} (dfltV : V) ismap : value_map (None : option jstring) dfltV ismap string_hash string_eq (fun _ => True).
Proof. apply value_map_ok. intros q a b. unfold string_eq, eqString. by rewrite bool_decide_eq_true. Qed.
(** Objects that keep the contract of equals and hashCode: the map the calls describe, with
    keys compared by Objects.equals. *)
Theorem C72_object_keys {O V} (dfltV : V) ismap same equals equalsNull (hashCode : O -> Z) :
  contract same equals equalsNull hashCode ->
  forall cap l s0 h s k, new_Hash None dfltV ismap cap l = Ok s0 ->
    hist (hstep None dfltV ismap (obj_hash hashCode) (obj_eq same equals equalsNull)) s0 h s ->
    Forall (fun c => by_key ismap (fun _ => True) c.1) h ->
    let ask o := (hstep None dfltV ismap (obj_hash hashCode) (obj_eq same equals equalsNull) o s).1 in
    match content dfltV (fun a b => match a, b with Some x, Some y => equals x y | None, None => true | _, _ => false end) h k with
    | Some v => ask (HContains k) = Ok (HB true) /\
        (ismap = true -> ask (HGet k) = Ok (HV v) /\ forall d, ask (HGetOrDefault k d) = Ok (HV v))
    | None => ask (HContains k) = Ok (HB false) /\
        (ismap = true -> ask (HGet k) = Exn KeyNotFound /\ forall d, ask (HGetOrDefault k d) = Ok (HV d))
    end.
Proof.
  intros (Cn & Ci & Cr & Cs & Ct & Ch) cap l s0 h s k E Hh F. cbv zeta.
  assert (forall q a b, obj_eq same equals equalsNull q a b =
    match a, b with Some x, Some y => equals x y | None, None => true | _, _ => false end) as Eq.
  { intros q [x|] [y|]; cbn; [|apply Cn|done..]. destruct (same x y) eqn:Es; [|done]. apply Ci in Es as ->. by rewrite Cr. }
  assert (good (obj_hash hashCode) (obj_eq same equals equalsNull) (fun _ => True) 0 0) as G.
  { split; [|split; [|split]].
    - intros [x|] _; rewrite Eq; [apply Cr|done].
    - intros [x|] [y|] _ _; rewrite !Eq; try done. apply Cs.
    - intros [x|] [y|] [z|] _ _ _; rewrite !Eq; try done. apply Ct.
    - intros [x|] [y|] _ _; rewrite !Eq; try done. intros Hxy. cbn. by rewrite (Ch x y Hxy). }
  pose proof (C30_last_write_wins _ _ _ _ _ _ _ _ _ _ _ k E G Hh F Logic.I) as W.
  assert (forall k, content dfltV (obj_eq same equals equalsNull 0) h k =
    content dfltV (fun a b => match a, b with Some x, Some y => equals x y | None, None => true | _, _ => false end) h k) as Ek; [|rewrite <- Ek; exact W].
  clear -Eq. unfold content. intros k. set (m1 := fun _ : option O => @None V) at 1. set (m2 := fun _ : option O => @None V).
  assert (forall k, m1 k = m2 k) as Hm by done. clearbody m1 m2. revert m1 m2 Hm k.
  induction h as [|c h IH]; intros m1 m2 Hm k; cbn; [apply Hm|]. apply IH. intros k'.
  destruct c as [o [x|x|]]; destruct o; cbn; rewrite ?Eq, ?Hm; done.
Qed.

(** Strings "Aa" and "BB" have the same hash code; null is a key. *)
Example C72_ex_string :
  let Aa := Some [65; 97] in let BB := Some [66; 66] in
  let st := hstep (None : option jstring) 0 true string_hash string_eq in
  let ops := [HPut Aa 1; HPut BB 2; HPut None 3; HPut Aa 4; HAdd (Some []); HRemove BB; HGet Aa] in
  hashString Aa = hashString BB /\
  exists s0 rs s, new_Hash None 0 true 2 (LF 3 2) = Ok s0 /\ run st ops s0 = (rs, s) /\ hist st s0 (zip ops rs) s /\
    Forall (fun c => by_key true (fun _ => True) c.1) (zip ops rs) /\
    kmap_of 0 (zip ops rs) = {[Aa := 4; None := 3; Some [] := 0]} /\
    (st (HGet None) s).1 = Ok (HV 3) /\ (st (HContains BB) s).1 = Ok (HB false) /\ (st HSize s).1 = Ok (HZ 3).
Proof.
  cbv zeta. split; [vm_compute; reflexivity|]. eexists _, _, _. split; [vm_compute; reflexivity|]. split; [vm_compute; reflexivity|]. split.
  - apply run_hist; [vm_compute; reflexivity|vm_compute; repeat constructor; discriminate|vm_compute; reflexivity].
  - split; [repeat constructor|]. split; [apply (bool_decide_unpack _); vm_compute; exact Logic.I|]. split; [vm_compute; reflexivity|].
    split; vm_compute; reflexivity.
Qed.
(** Long keys 0 and -1 have the same hash code, and so have 1 and 2^32. *)
Example C72_ex_long :
  let st := hstep 0 tt false lng_hash lng_eq in
  let ops := [HAdd 0; HAdd (-1); HAdd 4294967296; HAdd 1; HAdd 0; HRemove (-1); HAdd (-9223372036854775808)] in
  lng_hash 0 0 = lng_hash 0 (-1) /\ lng_hash 0 1 = lng_hash 0 4294967296 /\
  exists s0 rs s, new_Hash 0 tt false 2 (LF 3 2) = Ok s0 /\ run st ops s0 = (rs, s) /\ hist st s0 (zip ops rs) s /\
    Forall (fun c => by_key false is_i64 c.1) (zip ops rs) /\ is_i64 4294967296 /\
    size (kmap_of tt (zip ops rs)) = 4%nat /\ (st (HContains 4294967296) s).1 = Ok (HB true) /\ (st (HContains (-1)) s).1 = Ok (HB false).
Proof.
  cbv zeta. split; [vm_compute; reflexivity|]. split; [vm_compute; reflexivity|].
  eexists _, _, _. split; [vm_compute; reflexivity|]. split; [vm_compute; reflexivity|]. split.
  - apply run_hist; [vm_compute; reflexivity|vm_compute; repeat constructor; discriminate|vm_compute; reflexivity].
  - split; [repeat constructor; unfold is_i64; lia|]. split; [unfold is_i64; lia|]. split; [vm_compute; reflexivity|]. split; vm_compute; reflexivity.
Qed.
(** Objects that keep the contract without being equal only to themselves: numbers compared
    modulo 10. *)
Definition xequals (x y : Z) : bool := x mod 10 =? y mod 10.
Example C72_ex_object : contract Z.eqb xequals (fun _ => false) (fun x => x mod 10) /\
  let st := hstep None 0 true (obj_hash (fun x => x mod 10)) (obj_eq Z.eqb xequals (fun _ => false)) in
  let ops := [HPut (Some 3) 1; HPut None 2; HPut (Some 13) 5; HPut (Some 4) 6] in
  exists s0 rs s, new_Hash None 0 true 2 (LF 3 2) = Ok s0 /\ run st ops s0 = (rs, s) /\ hist st s0 (zip ops rs) s /\
    Forall (fun c => by_key true (fun _ => True) c.1) (zip ops rs) /\ (st (HGet (Some 23)) s).1 = Ok (HV 5) /\ (st (HGet None) s).1 = Ok (HV 2).
Proof.
  split.
  - unfold contract, xequals. repeat match goal with |- _ /\ _ => split end; intros *; rewrite ?Z.eqb_eq; try done; congruence.
  - cbv zeta. eexists _, _, _. split; [vm_compute; reflexivity|]. split; [vm_compute; reflexivity|]. split.
    + apply run_hist; [vm_compute; reflexivity|vm_compute; repeat constructor; discriminate|vm_compute; reflexivity].
    + split; [repeat constructor|]. split; vm_compute; reflexivity.
Qed.
Example C72_ex_small : 
  let st := hstep 0 0 true int_hash int_eq in
  let ops := [HPut 65535 1; HPut 0 2; HPut 65535 7; HRemove 0] in
  let bt := hstep false 0 true bool_hash bool_eq in
  let bops := [HPut true 1; HPut false 2; HRemove true] in
  (exists s0 rs s, new_Hash 0 0 true 2 (LF 3 2) = Ok s0 /\ run st ops s0 = (rs, s) /\ hist st s0 (zip ops rs) s /\
    Forall (fun c => by_key true is_u16 c.1) (zip ops rs) /\ is_u16 65535 /\ kmap_of 0 (zip ops rs) = {[65535 := 7]} /\ (st (HGet 65535) s).1 = Ok (HV 7)) /\
  (exists s0 rs s, new_Hash false 0 true 2 (LF 3 2) = Ok s0 /\ run bt bops s0 = (rs, s) /\ hist bt s0 (zip bops rs) s /\
    Forall (fun c => by_key true (fun _ => True) c.1) (zip bops rs) /\ kmap_of 0 (zip bops rs) = {[false := 2]} /\ (bt (HGet true) s).1 = Exn KeyNotFound).
Proof.
  cbv zeta. split.
  - eexists _, _, _. split; [vm_compute; reflexivity|]. split; [vm_compute; reflexivity|]. split.
    + apply run_hist; [vm_compute; reflexivity|vm_compute; repeat constructor; discriminate|vm_compute; reflexivity].
    + split; [repeat constructor; unfold is_u16; lia|]. split; [unfold is_u16; lia|].
      split; [apply (bool_decide_unpack _); vm_compute; exact Logic.I|]. vm_compute; reflexivity.
  - eexists _, _, _. split; [vm_compute; reflexivity|]. split; [vm_compute; reflexivity|]. split.
    + apply run_hist; [vm_compute; reflexivity|vm_compute; repeat constructor; discriminate|vm_compute; reflexivity].
    + split; [repeat constructor|].
      split; [apply (bool_decide_unpack _); vm_compute; exact Logic.I|]. vm_compute; reflexivity.
Qed.

Print Assumptions C72_int_keys.
Print Assumptions C72_byte_keys.
Print Assumptions C72_short_keys.
Print Assumptions C72_char_keys.
Print Assumptions C72_long_keys.
Print Assumptions C72_bool_keys.
Print Assumptions C72_string_keys.
Print Assumptions C72_object_keys.
