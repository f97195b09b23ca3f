(** C73-C76: the example programs. *)
From stdpp Require Import gmultiset.
From Verif Require Import JBase JLemmas JHist Num_Model Types_Model.
From Verif Require Heap_Model.
From Verif Require Import Hash_Model Bi_Model Bi_Proofs App_Model App_Spec App_Timeout App_Link App_Index App_School.
#[local] Opaque new_II new_School new_TM.

(** ** C73: the inverted index.  [h] is any history of calls in which every add returned. *)
Theorem C73_constructor : exists s, new_II = Ok s.
Proof. destruct new_II_ok as (s & E & _). by exists s. Qed.
(** count is the number of distinct orders added with the term. *)
Theorem C73_count s0 h s t : new_II = Ok s0 -> hist iistep s0 h s -> Forall iproper h ->
  (iistep (ICount t) s).1 = Ok (IZ (Z.of_nat (size (orders_with (links_of h) t)))).
Proof.
  intros E H F. pose proof (ihist_inv _ _ _ E H F) as I. clear E H F. destruct (ii_count_ok _ s t I) as (s' & E' & _).
  cbn [iistep]. by rewrite (out_map_run _ _ _ _ _ E').
Qed.
(** iterate, if it returns, delivers each of these orders once and no others. *)
Theorem C73_iterate_partial s0 h s t l s' : new_II = Ok s0 -> hist iistep s0 h s -> Forall iproper h ->
  iistep (IIterate t) s = (Ok (IL l), s') -> NoDup l /\ forall o, o ∈ l <-> o ∈ orders_with (links_of h) t.
Proof.
  intros E H F Es. cbn [iistep] in Es. apply out_map_inv in Es as (x & Es & Hx). destruct x as [l'| |]; [|discriminate Hx..]. injection Hx as <-.
 
  pose proof (ihist_inv _ _ _ E H F) as I. clear E H F.
  destruct (ii_iterate_inv _ _ _ _ _ I Es) as [_ Hl]; [discriminate|]. clear Es I. destruct (Hl l eq_refl) as [N Hi].
  split; [done|]. intros o. rewrite Hi. unfold orders_with. rewrite elem_of_map. split.
  - intros Ho. exists (t, o). by rewrite elem_of_filter.
  - intros ([t' o'] & -> & [Et Ho]%elem_of_filter). cbn in *. by subst t'.
Qed.
(** Every call returns as long as there are at most 128 links of a term to an order. *)
Theorem C73_returns_partial s0 h s o : new_II = Ok s0 -> hist iistep s0 h s -> Forall iproper h ->
  Z.of_nat (size (links_of (h ++ [(o, Ok IUnit)]))) <= 128 -> exists x s', iistep o s = (Ok x, s').
Proof.
  intros E H F Hs. pose proof (ihist_inv _ _ _ E H F) as I. clear E H F. unfold links_of in Hs. rewrite fold_left_app in Hs.
  change (fold_left links_step h ∅) with (links_of h) in Hs. destruct o as [o a b|t|t]; cbn [fold_left links_step] in Hs; cbn [iistep].
  - destruct (ii_add_total _ _ o a b I Hs) as (s' & E'). rewrite (out_map_run _ _ _ _ _ E'). by eexists _, _.
  - destruct (ii_count_ok _ s t I) as (s' & E' & _). rewrite (out_map_run _ _ _ _ _ E'). by eexists _, _.
  - destruct (ii_iterate_total _ s t I Hs) as (l & s' & E'). rewrite (out_map_run _ _ _ _ _ E'). by eexists _, _.
Qed.
Definition name (n : Z) : str := Some [n].
Definition add64 : list iop := map (fun n => IAdd (Z.of_nat n) (name 65) (name 66)) (seq 0 64).
Lemma irun_hist i ops :
  forallb (fun c : iop * res iout => match c with (IAdd o _ _, Ok IUnit) => (-2^63 <=? o) && (o <? 2^63) | (IAdd _ _ _, _) => false | (_, Loop) => false | _ => true end)
    (zip ops (run iistep ops i).1) = true ->
  length (run iistep ops i).1 = length ops ->
  hist iistep i (zip ops (run iistep ops i).1) (run iistep ops i).2 /\ Forall iproper (zip ops (run iistep ops i).1).
Proof.
  intros F L. rewrite forallb_forall in F. split.
  - apply run_hist; [by destruct (run _ _ _)| |exact L]. apply Forall_lookup_2. intros n r Hr Hl. subst r.
    destruct (lookup_lt_is_Some_2 ops n) as [o Ho]; [rewrite <- L; by eapply lookup_lt_Some|].
    assert (zip ops (run iistep ops i).1 !! n = Some (o, Loop)) as Hz by (apply lookup_zip_with_Some; by exists o, Loop).
    apply elem_of_list_lookup_2, elem_of_list_In, F in Hz. by destruct o.
  - apply Forall_forall. intros [o r] Hi%elem_of_list_In%F. destruct o; cbn; [|exact Logic.I..].
    destruct r as [[]| |]; try discriminate. split; [|reflexivity]. apply andb_true_iff in Hi as [?%Z.leb_le ?%Z.ltb_lt]. unfold is_i64. lia.
Qed.
Ltac concrete_II i E := destruct new_II as [i| |] eqn:E; [|vm_compute in E; discriminate E..];
  let E1 := fresh in pose proof E as E1; vm_compute in E1; injection E1 as <-.
Ltac concrete_School i E := destruct new_School as [i| |] eqn:E; [|vm_compute in E; discriminate E..];
  let E1 := fresh in pose proof E as E1; vm_compute in E1; injection E1 as <-.
(** The 65th order, with two new terms, is counted but cannot be iterated. *)
Theorem C73_iterate_refuted : exists s0 h s, new_II = Ok s0 /\ hist iistep s0 h s /\ Forall iproper h /\
  orders_with (links_of h) (name 67) = {[64]} /\
  (iistep (ICount (name 67)) s).1 = Ok (IZ 1) /\ (iistep (IIterate (name 67)) s).1 = Exn IndexOutOfBounds.
Proof.
  set (ops := add64 ++ [IAdd 64 (name 67) (name 68)]). concrete_II i E.
  match type of E with _ = Ok ?i => destruct (irun_hist i ops) as [H1 H2]; [vm_compute; reflexivity|vm_compute; reflexivity|] end.
  eexists _, _, _. split; [reflexivity|]. split; [exact H1|]. split; [exact H2|]. clear H1 H2 E.
  split; [apply (bool_decide_unpack _); vm_compute; exact Logic.I|]. split; vm_compute; reflexivity.
Qed.
(** A repeated order and a term used as both symbol and strategy are counted once. *)
Example C73_ex : exists s0 h s, new_II = Ok s0 /\ hist iistep s0 h s /\ Forall iproper h /\
  orders_with (links_of h) (name 1) = {[10; 11]} /\ orders_with (links_of h) None = {[12]} /\
  Z.of_nat (size (links_of (h ++ [(IIterate (name 1), Ok IUnit)]))) <= 128 /\
  (exists s', iistep (IIterate (name 1)) s = (Ok (IL [11; 10]), s')) /\ (iistep (ICount (name 2)) s).1 = Ok (IZ 1) /\
  (iistep (ICount (name 9)) s).1 = Ok (IZ 0).
Proof.
  set (ops := [IAdd 10 (name 1) (name 2); IAdd 10 (name 1) (name 2); ICount (name 1); IAdd 11 (name 1) (name 1); IAdd 12 None (name 3)]).
  concrete_II i E.
  match type of E with _ = Ok ?i => destruct (irun_hist i ops) as [H1 H2]; [vm_compute; reflexivity|vm_compute; reflexivity|] end.
  eexists _, _, _. split; [reflexivity|]. split; [exact H1|]. split; [exact H2|]. clear H1 H2 E.
  split; [apply (bool_decide_unpack _); vm_compute; exact Logic.I|]. split; [apply (bool_decide_unpack _); vm_compute; exact Logic.I|].
  split; [vm_compute; discriminate|]. split; [eexists; vm_compute; reflexivity|]. split; vm_compute; reflexivity.
Qed.

(** ** C74: classes and students *)
Theorem C74_constructor : exists s, new_School = Ok s.
Proof. destruct new_School_ok as (s & E & _). by exists s. Qed.
(** Whatever a call returns is what the calls of updateClass and enroll so far say. *)
Theorem C74_answers_partial i h s o x s' : new_School = Ok i -> hist sstep i h s -> Forall sproper h ->
  sstep o s = (Ok x, s') -> sanswer (school_of h) o x.
Proof.
  intros E H F Es. pose proof (shist_inv _ _ _ E H F) as I. clear E H F.
  apply (sstep_inv (school_of h) s o (Ok x) s' I Es); [discriminate| |reflexivity]. clear Es I. destruct o; cbn; eauto.
Qed.
(** Every call returns as long as there are at most 16 enrolments; asking for the students of
    a class without any only with at most 16 classes. *)
Theorem C74_returns_partial i h s o : new_School = Ok i -> hist sstep i h s -> Forall sproper h ->
  Z.of_nat (size (enrolled (school_of (h ++ [(o, Ok SUnit)])))) <= 16 -> Z.of_nat (size (teacher (school_of h))) < MAX_CAPACITY ->
  (forall c, o = SStudents c -> Z.of_nat (size (teacher (school_of h))) <= 16 \/ exists x, (c, x) ∈ enrolled (school_of h)) ->
  exists x s', sstep o s = (Ok x, s').
Proof.
  intros E H F Hs Ht Hc. pose proof (shist_inv _ _ _ E H F) as I. clear E H F. unfold school_of in Hs. rewrite fold_left_app in Hs.
  change (fold_left sabs_step h s0) with (school_of h) in Hs. destruct o as [c t|c y|c|y]; cbn [fold_left sabs_step] in Hs; cbn [sstep].
  - destruct (updateClass_total _ s c t I Ht) as (s' & E'). rewrite (out_map_run _ _ _ _ _ E'). by eexists _, _.
  - destruct (enroll_total _ s c y I) as (r & s' & E').
    + destruct (teacher (school_of h) !! c) eqn:Et; [right; exact Hs|by left].
    + rewrite (out_map_run _ _ _ _ _ E'). by eexists _, _.
  - destruct (students_total _ s c I Hs (Hc c eq_refl)) as (r & s' & E'). rewrite (out_map_run _ _ _ _ _ E'). by eexists _, _.
  - destruct (classes_total _ s y I Hs) as (r & s' & E'). rewrite (out_map_run _ _ _ _ _ E'). by eexists _, _.
Qed.
(** With 16 students in one class, the first student of another cannot be listed; nor can
    the students of the 17th class before it has any. *)
Definition ups (n : nat) : list sop := map (fun k => SUpdate (name (Z.of_nat k)) (name 200)) (seq 0 n).
Definition ens (n : nat) : list sop := map (fun k => SEnroll (name 0) (name (Z.of_nat k))) (seq 0 n).
Lemma srun_hist i ops :
  forallb (fun r : res sout => match r with Ok _ => true | _ => false end) (run sstep ops i).1 = true ->
  length (run sstep ops i).1 = length ops ->
  hist sstep i (zip ops (run sstep ops i).1) (run sstep ops i).2 /\ Forall sproper (zip ops (run sstep ops i).1).
Proof.
  intros F L. rewrite forallb_forall in F. split.
  - apply run_hist; [by destruct (run _ _ _)| |exact L]. apply Forall_forall. intros r Hi%elem_of_list_In%F. by destruct r.
  - apply Forall_forall. intros [o r] Hi. apply elem_of_zip_r, elem_of_list_In, F in Hi.
    destruct r as [x| |]; try discriminate. destruct o; cbn; eauto.
Qed.
Theorem C74_enrolled_refuted : exists i h s, new_School = Ok i /\ hist sstep i h s /\ Forall sproper h /\
  size (enrolled (school_of h)) = 17%nat /\ (name 1, name 99) ∈ enrolled (school_of h) /\ size (teacher (school_of h)) = 2%nat /\
  (sstep (SStudents (name 1)) s).1 = Exn IndexOutOfBounds /\ (sstep (SClasses (name 99)) s).1 = Exn IndexOutOfBounds.
Proof.
  set (ops := ups 2 ++ ens 16 ++ [SEnroll (name 1) (name 99)]).
  concrete_School i E0.
  match type of E0 with _ = Ok ?i => destruct (srun_hist i ops) as [H1 H2]; [vm_compute; reflexivity|vm_compute; reflexivity|] end.
  eexists _, _, _. split; [reflexivity|]. split; [exact H1|]. split; [exact H2|]. clear H1 H2 E0.
  split; [vm_compute; reflexivity|]. split; [apply (bool_decide_unpack _); vm_compute; exact Logic.I|].
  split; [vm_compute; reflexivity|]. split; vm_compute; reflexivity.
Qed.
Theorem C74_empty_class_refuted : exists i h s, new_School = Ok i /\ hist sstep i h s /\ Forall sproper h /\
  enrolled (school_of h) = ∅ /\ teacher (school_of h) !! name 16 = Some (name 200) /\
  (sstep (SStudents (name 16)) s).1 = Exn IndexOutOfBounds.
Proof.
  set (ops := ups 17).
  concrete_School i E0.
  match type of E0 with _ = Ok ?i => destruct (srun_hist i ops) as [H1 H2]; [vm_compute; reflexivity|vm_compute; reflexivity|] end.
  eexists _, _, _. split; [reflexivity|]. split; [exact H1|]. split; [exact H2|]. clear H1 H2 E0.
  split; [apply (bool_decide_unpack _); vm_compute; exact Logic.I|]. split; vm_compute; reflexivity.
Qed.
(** A class whose teacher changed, a student in two classes, an enrolment in an unknown class
    that is refused. *)
Example C74_ex : exists i h s, new_School = Ok i /\ hist sstep i h s /\ Forall sproper h /\
  enrolled (school_of h) = {[(name 1, name 11); (name 1, name 12); (name 2, name 11)]} /\
  Z.of_nat (size (enrolled (school_of (h ++ [(SStudents (name 1), Ok SUnit)])))) <= 16 /\ Z.of_nat (size (teacher (school_of h))) <= 16 /\
  (sstep (SStudents (name 1)) s).1 = Ok (SStudentList (Some (2, name 23, [name 12; name 11]))) /\
  (sstep (SClasses (name 11)) s).1 = Ok (SClassList (Some (2, [(name 2, name 22); (name 1, name 23)]))) /\
  (sstep (SEnroll (name 9) (name 13)) s).1 = Ok (SB false) /\ (sstep (SClasses (name 13)) s).1 = Ok (SClassList None).
Proof.
  set (ops := [SUpdate (name 1) (name 21); SUpdate (name 2) (name 22); SEnroll (name 1) (name 11); SEnroll (name 2) (name 11);
    SUpdate (name 1) (name 23); SEnroll (name 1) (name 12); SEnroll (name 1) (name 11); SEnroll (name 9) (name 13)]).
  concrete_School i E0.
  match type of E0 with _ = Ok ?i => destruct (srun_hist i ops) as [H1 H2]; [vm_compute; reflexivity|vm_compute; reflexivity|] end.
  eexists _, _, _. split; [reflexivity|]. split; [exact H1|]. split; [exact H2|]. clear H1 H2 E0.
  split; [apply (bool_decide_unpack _); vm_compute; exact Logic.I|]. split; [vm_compute; discriminate|]. split; [vm_compute; discriminate|].
  repeat match goal with |- _ /\ _ => split end; vm_compute; reflexivity.
Qed.

(** ** C75: timeouts.  [treach P s h]: [h] is any history of calls in which only items that
    wait are acknowledged (other acknowledgements were rejected); [P] are the items waiting. *)
Theorem C75_constructor : exists s, new_TM = Ok s.
Proof. eexists. vm_compute. reflexivity. Qed.
(** process returns, and does what App_Spec.proper says, whatever the clock shows. *)
Theorem C75_process P s h clock : treach P s h ->
  exists l d s', tstep (TProcess clock) s = (Ok (TReports l d), s') /\ proper clock P l d.
Proof. intros R. destruct (process_full clock P s (treach_inv _ _ _ R)) as (l & d & s' & E & Pr & _). by exists l, d, s'. Qed.
(** While the clock shows [now], exactly the items that expired before it are reported. *)
Theorem C75_expired_reported P s h now l d s' : treach P s h -> tstep (TProcess (fun _ => now)) s = (Ok (TReports l d), s') ->
  forall e x v, P !! e = Some (x, v) -> (x < now <-> exists r, r ∈ l /\ r_entry r = e /\ r_next r = x /\ r_item r = v).
Proof.
  intros R E e x v Ee. destruct (C75_process P s h (fun _ => now) R) as (l' & d' & s1 & E' & N & Pl & _ & _ & P0 & P1).
  rewrite E in E'. injection E' as <- <- <-. split.
  - intros Hx. change (fold_left _ l P) with (drops l P) in *. destruct (decide (e ∈ map r_entry l)) as [Hi|Hi].
    + apply elem_of_list_fmap in Hi as (r & -> & Hi). exists r. destruct (elem_of_list_lookup_1 _ _ Hi) as [n Hn].
      destruct (Pl n r Hn) as (Er & _). rewrite Ee in Er. injection Er as -> ->. done.
    + assert (drops l P !! e = Some (x, v)) as Ed by (by rewrite drops_lookup, bool_decide_false).
      destruct P1 as (e1 & x1 & v1 & _ & Mn & Hc & _); [by intros E0; rewrite E0, lookup_empty in Ed|].
      specialize (Mn _ _ _ Ed). lia.
  - intros (r & Hi & _ & <- & _). destruct (elem_of_list_lookup_1 _ _ Hi) as [n Hn]. destruct (Pl n r Hn) as (_ & -> & Hlt). done.
Qed.
(** A clock that goes on: every item that expired before the first reading is reported. *)
Theorem C75_none_left P s h clock l d s' : treach P s h -> (forall n, clock O <= clock n) ->
  tstep (TProcess clock) s = (Ok (TReports l d), s') ->
  forall e x v, P !! e = Some (x, v) -> x < clock O -> exists r, r ∈ l /\ r_entry r = e /\ r_item r = v.
Proof.
  intros R Hc E e x v Ee Hx. destruct (C75_process P s h clock R) as (l' & d' & s1 & E' & N & Pl & _ & _ & P0 & P1).
  rewrite E in E'. injection E' as <- <- <-. change (fold_left _ l P) with (drops l P) in *. destruct (decide (e ∈ map r_entry l)) as [Hi|Hi].
  - apply elem_of_list_fmap in Hi as (r & -> & Hi). exists r. destruct (elem_of_list_lookup_1 _ _ Hi) as [n Hn].
    destruct (Pl n r Hn) as (Er & _). rewrite Ee in Er. injection Er as _ ->. done.
  - assert (drops l P !! e = Some (x, v)) as Ed by (by rewrite drops_lookup, bool_decide_false).
    destruct P1 as (e1 & x1 & v1 & _ & Mn & Hl & _); [by intros E0; rewrite E0, lookup_empty in Ed|].
    specialize (Mn _ _ _ Ed). specialize (Hc (length l)). lia.
Qed.
(** Adding an item returns a new entry while fewer than 2^29 items wait; acknowledging an
    item that waits returns. *)
Theorem C75_add_ack P s h : treach P s h ->
  (forall v x, is_i64 x -> Z.of_nat (size P) < 2 ^ 29 -> exists e s', tstep (TAdd v x) s = (Ok (TEntry e), s') /\ P !! e = None) /\
  (forall e, is_Some (P !! e) -> exists s', tstep (TAck e) s = (Ok TUnit, s')).
Proof.
  intros R%treach_inv. split.
  - intros v x Hx Hs. destruct (tinv_add P s x v R Hx Hs) as (e & s' & E & Hn & _). exists e, s'. split; [|done].
    cbn [tstep]. by rewrite (out_map_run _ _ _ _ _ E).
  - intros e He. destruct (tinv_remove P s e R He) as (s' & E & _). exists s'. cbn [tstep]. unfold acknowledge. by rewrite (out_map_run _ _ _ _ _ E).
Qed.
(** Every item added was acknowledged once, or reported once, or still waits. *)
Theorem C75_accounted P s h : treach P s h ->
  let '(added, acked, reported) := tally h in added = acked ⊎ reported ⊎ waiting P.
Proof. intros R. by destruct (tally_sum _ _ _ R). Qed.

(** ** C76: acknowledgements.  An item acknowledged while it waits is not reported by later
    calls of process, and no other item is lost: they report all others that expired. *)
Theorem C76_ack_partial P s h e s1 now l d s2 : treach P s h -> is_Some (P !! e) -> tstep (TAck e) s = (Ok TUnit, s1) ->
  tstep (TProcess (fun _ => now)) s1 = (Ok (TReports l d), s2) ->
  (forall r, r ∈ l -> r_entry r <> e) /\
  forall e' x v, e' <> e -> P !! e' = Some (x, v) -> (x < now <-> exists r, r ∈ l /\ r_entry r = e' /\ r_next r = x /\ r_item r = v).
Proof.
  intros R He E1 E2. assert (treach (delete e P) s1 (h ++ [(TAck e, Ok TUnit)])) as R1.
  { apply (treach_call P s h (TAck e) (Ok TUnit) s1 R E1); [discriminate|by left]. }
  split.
  - intros r Hr <-. destruct (C75_process _ _ _ (fun _ => now) R1) as (l' & d' & s' & E' & N & Pl & _).
    rewrite E2 in E'. injection E' as <- <- <-. destruct (elem_of_list_lookup_1 _ _ Hr) as [n Hn]. destruct (Pl n r Hn) as [Er _].
    by rewrite lookup_delete in Er.
  - intros e' x v N Ee. apply (C75_expired_reported _ _ _ _ _ _ _ R1 E2). by rewrite lookup_delete_ne.
Qed.
(** An item acknowledged after it was reported: its entry has been reused, the item that
    waits there disappears and is never reported. *)
Theorem C76_late_ack_refuted : exists s0 s, new_TM = Ok s0 /\
  run tstep [TAdd 7 100; TProcess (fun _ => 150); TAdd 8 200; TAck 0; TProcess (fun _ => 1000)] s0 =
    ([Ok (TEntry 0); Ok (TReports [mkReport 0 150 100 7] 100); Ok (TEntry 0); Ok TUnit; Ok (TReports [] 100)], s).
Proof. eexists _, _. split; [vm_compute; reflexivity|]. vm_compute. reflexivity. Qed.
Ltac tcall R o R' := match type of R with treach ?P ?s ?h => let x := eval vm_compute in (tstep o s) in
  match x with (?r, ?s') => assert (treach (pend_step P (o, r)) s' (h ++ [(o, r)])) as R';
    [apply (treach_call P s h o r s' R); [vm_compute; reflexivity|discriminate|]|] end end.
(** An item is reported with the others that expired; an acknowledged one is not; the second
    entry with the same expiry and item counts on its own. *)
Example C75_C76_ex : exists P s h l d s', treach P s h /\ P = {[0 := (100, 7); 2 := (100, 7); 3 := (300, 9)]} /\
  tstep (TProcess (fun _ => 150)) s = (Ok (TReports l d), s') /\ l = [mkReport 0 150 100 7; mkReport 2 150 100 7] /\ d = 150 /\
  (exists s1 s2, tstep (TAck 2) s = (Ok TUnit, s1) /\ tstep (TProcess (fun _ => 150)) s1 = (Ok (TReports [mkReport 0 150 100 7] 150), s2)).
Proof.
  destruct new_TM as [s0| |] eqn:E0; [|vm_compute in E0; discriminate E0..]. pose proof (treach_new _ E0) as R0. vm_compute in E0. injection E0 as <-.
  tcall R0 (TAdd 7 100) R1; [split; [unfold is_i64; lia|vm_compute; reflexivity]|].
  tcall R1 (TAdd 8 50) R2; [split; [unfold is_i64; lia|vm_compute; reflexivity]|].
  tcall R2 (TAdd 7 100) R3; [split; [unfold is_i64; lia|vm_compute; reflexivity]|].
  tcall R3 (TAdd 9 300) R4; [split; [unfold is_i64; lia|vm_compute; reflexivity]|].
  tcall R4 (TAck 1) R5; [left; vm_compute; eexists; reflexivity|].
  eexists _, _, _, _, _, _. split; [exact R5|].
  split; [apply (bool_decide_unpack _); vm_compute; exact Logic.I|]. split; [vm_compute; reflexivity|]. split; [reflexivity|]. split; [reflexivity|].
  eexists _, _. split; [vm_compute; reflexivity|]. vm_compute. reflexivity.
Qed.

Print Assumptions C73_constructor.
Print Assumptions C73_count.
Print Assumptions C73_iterate_partial.
Print Assumptions C73_returns_partial.
Print Assumptions C73_iterate_refuted.
Print Assumptions C74_constructor.
Print Assumptions C74_answers_partial.
Print Assumptions C74_returns_partial.
Print Assumptions C74_enrolled_refuted.
Print Assumptions C74_empty_class_refuted.
Print Assumptions C75_constructor.
Print Assumptions C75_process.
Print Assumptions C75_expired_reported.
Print Assumptions C75_none_left.
Print Assumptions C75_add_ack.
Print Assumptions C75_accounted.
Print Assumptions C76_ack_partial.
Print Assumptions C76_late_ack_refuted.
