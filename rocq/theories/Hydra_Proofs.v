From Verif Require Import JBase JLemmas JHist Num_Model Num_Spec Num_Proofs Grow_Lemmas Hydra_Model Hydra_Spec.

(** * Total length of all lists *)
Section Total.
  Context {A : Type}.
  Implicit Types m : lists A.

  Lemma total_empty : total (∅ : lists A) = 0.
  Proof. reflexivity. Qed.
  Lemma total_insert_new m i l : m !! i = None -> total (<[i := l]> m) = Z.of_nat (length l) + total m.
  Proof.
    intros H. unfold total. rewrite map_fold_insert_L; [done| |done]. intros. lia.
  Qed.
  Lemma total_delete m i : total m = Z.of_nat (length (lst m i)) + total (delete i m).
  Proof.
    unfold lst. destruct (m !! i) as [l|] eqn:E; cbn.
    - rewrite <- (insert_delete m i l E) at 1. apply total_insert_new, lookup_delete.
    - by rewrite delete_notin.
  Qed.
  Lemma total_insert m i l :
    total (<[i := l]> m) = total m - Z.of_nat (length (lst m i)) + Z.of_nat (length l).
  Proof.
    rewrite (total_delete (<[i:=l]> m) i), (total_delete m i). rewrite delete_insert_delete.
    unfold lst at 1. rewrite lookup_insert. cbn. lia.
  Qed.
  Lemma total_nonneg m : 0 <= total m.
  Proof.
    unfold total. apply (map_fold_ind (fun n _ => 0 <= n)); intros; lia.
  Qed.
  Lemma total_ge m i : Z.of_nat (length (lst m i)) <= total m.
  Proof. rewrite (total_delete m i). pose proof (total_nonneg (delete i m)). lia. Qed.
  Lemma lst_insert m i l j : lst (<[i := l]> m) j = if decide (i = j) then l else lst m j.
  Proof.
    unfold lst. case_decide as E; [subst; by rewrite lookup_insert|by rewrite lookup_insert_ne].
  Qed.
End Total.

(** * Chains of links *)
Definition hdz (t : Z) (l : list Z) : Z := match l with [] => t | a :: _ => a end.
Fixpoint nchain (nx : list Z) (l : list Z) (t : Z) : Prop :=
  match l with [] => True | a :: r => aget nx a = Some (hdz t r) /\ nchain nx r t end.
(** free list: entries are stored negated *)
Definition fenc (l : list Z) : Z := match l with [] => -1 | a :: _ => - a - 2 end.
Fixpoint fchain (nx : list Z) (l : list Z) : Prop :=
  match l with [] => True | a :: r => aget nx a = Some (fenc r) /\ fchain nx r end.

Lemma hdz_app t l1 l2 : hdz t (l1 ++ l2) = hdz (hdz t l2) l1.
Proof. by destruct l1. Qed.
Lemma nchain_app nx l1 l2 t : nchain nx (l1 ++ l2) t <-> nchain nx l1 (hdz t l2) /\ nchain nx l2 t.
Proof.
  induction l1 as [|a l1 IH]; cbn; [tauto|]. rewrite IH, hdz_app. tauto.
Qed.
Lemma nchain_mono nx nx' l t : (forall e, e ∈ l -> aget nx' e = aget nx e) -> nchain nx l t -> nchain nx' l t.
Proof.
  intros H. induction l as [|a l IH]; cbn; [done|]. intros [H1 H2]. split.
  - rewrite H; [done|constructor].
  - apply IH; [|done]. intros e He. apply H. by constructor.
Qed.
Lemma nchain_upd nx l t e v : 0 <= e -> e ∉ l -> nchain nx l t -> nchain (upd nx e v) l t.
Proof.
  intros He Hn. apply nchain_mono. intros e' He'. apply aget_upd_ne; [done|]. by intros ->.
Qed.
Lemma nchain_pad nx l t n d : nchain nx l t -> nchain (padto nx n d) l t.
Proof.
  induction l as [|a l IH]; cbn; [done|]. intros [H1 H2]. split; [by apply aget_padto_Some|auto].
Qed.
Lemma fchain_mono nx nx' l : (forall e, e ∈ l -> aget nx' e = aget nx e) -> fchain nx l -> fchain nx' l.
Proof.
  intros H. induction l as [|a l IH]; cbn; [done|]. intros [H1 H2]. split.
  - rewrite H; [done|constructor].
  - apply IH; [|done]. intros e He. apply H. by constructor.
Qed.
Lemma fchain_upd nx l e v : 0 <= e -> e ∉ l -> fchain nx l -> fchain (upd nx e v) l.
Proof.
  intros He Hn. apply fchain_mono. intros e' He'. apply aget_upd_ne; [done|]. by intros ->.
Qed.
Lemma fchain_pad nx l n d : fchain nx l -> fchain (padto nx n d) l.
Proof.
  induction l as [|a l IH]; cbn; [done|]. intros [H1 H2]. split; [by apply aget_padto_Some|auto].
Qed.
Lemma nchain_aget nx l t e : nchain nx l t -> e ∈ l -> 0 <= e < alen nx.
Proof.
  induction l as [|a l IH]; cbn; [by intros _ ?%elem_of_nil|].
  intros [H1 H2] [->|He]%elem_of_cons; [by apply aget_Some in H1|auto].
Qed.

Lemma aget_if {A} (P : Prop) `{Decision P} (l1 l2 : list A) i :
  aget (if decide P then l1 else l2) i = if decide P then aget l1 i else aget l2 i.
Proof. by case_decide. Qed.
Lemma in_rev' (l : list Z) a : a ∈ l <-> a ∈ rev l.
Proof. rewrite !elem_of_list_In. apply in_rev. Qed.
Lemma Forall2_impl_in {X Y} (P Q : X -> Y -> Prop) l k :
  Forall2 P l k -> (forall x y, x ∈ l -> P x y -> Q x y) -> Forall2 Q l k.
Proof.
  induction 1 as [|x y l k H1 H2 IH]; intros HQ; constructor.
  - apply HQ; [constructor|done].
  - apply IH. intros. apply HQ; [by constructor|done].
Qed.
Lemma hdz_rev_cons e L : hdz (-1) (rev (e :: L)) = hdz e (rev L).
Proof. cbn. by rewrite hdz_app. Qed.

Section Hydra.
  Context {A : Type} (dflt : A).
  Notation hstep := (hstep dflt).

  (** [E]: the entries of every list; [F]: the free list; [H]: entries allocated but not yet
      linked; [lost]: number of entries given up by [clear]. *)
  Record HInv (s : hydra A) (m : lists A) (E : Z -> list Z) (F H : list Z) (lost : Z) : Prop := {
    hi_qt : alen (tails s) = alen (heads s);
    hi_qc : alen (hcount s) = alen (heads s);
    hi_qmax : alen (heads s) <= MAX_INT;
    hi_np : alen (prevs s) = alen (nexts s);
    hi_nv : alen (hv s) = alen (nexts s);
    hi_pow : is_pow2 (alen (nexts s)) /\ alen (nexts s) <= 2 ^ 30;
    hi_max : -1 <= maxEntry s < alen (nexts s);
    hi_ids : forall id, ~ (0 <= id < alen (heads s)) -> E id = [];
    hi_heads : forall id, 0 <= id < alen (heads s) -> aget (heads s) id = Some (hdz (-1) (E id));
    hi_tails : forall id, 0 <= id < alen (heads s) -> aget (tails s) id = Some (hdz (-1) (rev (E id)));
    hi_count : forall id, 0 <= id < alen (heads s) -> aget (hcount s) id = Some (alen (E id));
    hi_next : forall id, nchain (nexts s) (E id) (-1);
    hi_prev : forall id, nchain (prevs s) (rev (E id)) (-1);
    hi_val : forall id, Forall2 (fun e x => aget (hv s) e = Some x) (E id) (lst m id);
    hi_freeList : freeList s = fenc F;
    hi_free : fchain (nexts s) F;
    hi_prevsF : forall e, e ∈ F ++ H -> aget (prevs s) e = Some (-1);
    hi_prevsM : forall e, maxEntry s < e < alen (nexts s) -> aget (prevs s) e = Some (-1);
    hi_range : forall id e, e ∈ E id -> 0 <= e <= maxEntry s;
    hi_rangeF : forall e, e ∈ F ++ H -> 0 <= e <= maxEntry s;
    hi_disj : forall i j e, e ∈ E i -> e ∈ E j -> i = j;
    hi_disjF : forall i e, e ∈ E i -> e ∉ F ++ H;
    hi_nd : forall i, NoDup (E i);
    hi_ndF : NoDup (F ++ H);
    hi_size : hsize s = total m;
    hi_sum : hsize s + alen F + alen H + lost = maxEntry s + 1;
    hi_lost : 0 <= lost;
    hi_blank : forall e, 0 <= e < alen (hv s) -> (forall id, e ∉ E id) -> aget (hv s) e = Some dflt
  }.

  Lemma inv_len s m E F H lost id : HInv s m E F H lost -> alen (E id) = Z.of_nat (length (lst m id)).
  Proof. intros I. unfold alen. by rewrite (Forall2_length _ _ _ (hi_val _ _ _ _ _ _ I id)). Qed.
  Lemma inv_small s m E F H lost : HInv s m E F H lost -> 0 <= total m <= 1073741824 /\ alen (nexts s) <= 1073741824.
  Proof.
    intros I. pose proof (total_nonneg m). destruct (hi_pow _ _ _ _ _ _ I) as [_ Hp].
    change (2 ^ 30) with 1073741824 in Hp. pose proof (hi_max _ _ _ _ _ _ I). pose proof (hi_sum _ _ _ _ _ _ I).
    pose proof (hi_size _ _ _ _ _ _ I). pose proof (hi_lost _ _ _ _ _ _ I).
    pose proof (alen_nonneg F). pose proof (alen_nonneg H). lia.
  Qed.

  (** ** [ensureList] *)
  Lemma ensureList_ok s m E F id lost : HInv s m E F [] lost -> is_i32 id ->
    exists r s', ensureList id s = (r, s') /\
      match r with
      | Ok _ => HInv s' m E F [] lost /\ maxEntry s' = maxEntry s /\
                (if decide (0 <= id) then id < alen (heads s') \/ (id = MAX_INT /\ alen (heads s') <= id) else True)
      | Exn _ => False
      | Loop => 2 ^ 30 <= id
      end.
  Proof.
    intros I Hid. unfold ensureList. mon. unfold ensureEntry_with.
    rewrite ensureSize_with_grown by apply I.
    destruct (grown (alen (heads s)) (i32 (id + 1))) as [n|e|] eqn:G.
    - rewrite (bind_of_res _ _ _ _ eq_refl). mon. cbn [tails hcount set eta_hydra].
      unfold set; cbn [tails hcount heads hv nexts prevs freeList hsize maxEntry].
      rewrite ensureSize_with_grown by (rewrite (hi_qt _ _ _ _ _ _ I); apply I).
      rewrite (hi_qt _ _ _ _ _ _ I), G.
      rewrite (bind_of_res _ _ _ _ eq_refl). mon.
      unfold set; cbn [tails hcount heads hv nexts prevs freeList hsize maxEntry].
      unfold ensureEntry. rewrite ensureSize_grown, (hi_qc _ _ _ _ _ _ I), G.
      rewrite (bind_of_res _ _ _ _ eq_refl). unfold modify, set.
      cbn [tails hcount heads hv nexts prevs freeList hsize maxEntry].
      eexists _, _. split; [reflexivity|].
      pose proof (grown_ge _ _ _ G) as [G1 G2].
      assert (n <= MAX_INT) as G3.
      { eapply grown_max; [|exact G]. split; [apply alen_nonneg|apply I]. }
      split; [|split; [done|]].
      + pose proof (hi_qt _ _ _ _ _ _ I) as Q1. pose proof (hi_qc _ _ _ _ _ _ I) as Q2.
        destruct I. split; cbn [tails hcount heads hv nexts prevs freeList hsize maxEntry]; try done;
          rewrite ?alen_padto by lia; try done; try lia.
        * intros i Hi. apply hi_ids0. lia.
        * intros i Hi. rewrite aget_padto by lia. case_decide; [|apply hi_heads0; lia].
          rewrite hi_ids0 by lia. done.
        * intros i Hi. rewrite aget_padto by lia. case_decide; [|apply hi_tails0; lia].
          rewrite hi_ids0 by lia. done.
        * intros i Hi. rewrite aget_padto by lia. case_decide; [|apply hi_count0; lia].
          rewrite hi_ids0 by lia. done.
      + cbn [heads]. rewrite alen_padto by lia. case_decide; [|done].
        unfold is_i32, MAX_INT in *. destruct (decide (id = 2147483647)); [right; lia|left].
        rewrite i32_id in G2 by (unfold is_i32; lia). lia.
    - by apply grown_no_exn in G.
    - rewrite bind_of_loop by done. eexists _, _. split; [reflexivity|]. cbv beta iota.
      destruct (Z.lt_ge_cases id (2 ^ 30)); [|done]. exfalso.
      change (2 ^ 30) with 1073741824 in *.
      destruct (grown_small (alen (heads s)) (i32 (id + 1))) as (? & E1 & _); [apply alen_nonneg| |congruence].
      rewrite i32_id by (unfold is_i32 in *; lia). lia.
  Qed.

  (** ** [allocateEntry] *)
  Lemma allocateEntry_ok s m E F lost : HInv s m E F [] lost ->
    exists r s', allocateEntry dflt s = (r, s') /\ heads s' = heads s /\ tails s' = tails s /\
      match r with
      | Ok e => exists F', HInv s' m E F' [e] lost /\
                (maxEntry s' = maxEntry s \/ maxEntry s' = maxEntry s + 1 /\ F' = [])
      | Exn _ => False
      | Loop => maxEntry s + 1 = 2 ^ 30
      end.
  Proof.
    intros I. pose proof (inv_small _ _ _ _ _ _ I) as [Hsm Hnm].
    unfold allocateEntry. mon. rewrite (hi_freeList _ _ _ _ _ _ I).
    pose proof (hi_max _ _ _ _ _ _ I) as Hmax.
    destruct F as [|e F]; cbn [fenc].
    - change (-1 <? -1) with false. cbv iota. mon.
      unfold set; cbn [tails hcount heads hv nexts prevs freeList hsize maxEntry].
      rewrite (i32_id (maxEntry s + 1)) by (unfold is_i32; lia).
      unfold ensureEntry. rewrite ensureSize_grown. rewrite (hi_nv _ _ _ _ _ _ I).
      rewrite (i32_id (maxEntry s + 1 + 1)) by (unfold is_i32; lia).
      assert ((exists n, grown (alen (nexts s)) (maxEntry s + 1 + 1) = Ok n /\ is_pow2 n /\ n <= 2 ^ 30) \/
        (maxEntry s + 1 = 2 ^ 30 /\ grown (alen (nexts s)) (maxEntry s + 1 + 1) = Loop)) as HG.
      { destruct (hi_pow _ _ _ _ _ _ I) as [Hp Hl].
        destruct (decide (maxEntry s + 1 = alen (nexts s))) as [->|].
        - by apply grown_one.
        - left. rewrite grown_same by lia. eauto. }
      destruct HG as [(n & G & Hn1 & Hn2)|(Hm & G)]; rewrite G.
      + rewrite (bind_of_res _ _ _ _ eq_refl). mon.
        unfold set; cbn [tails hcount heads hv nexts prevs freeList hsize maxEntry].
        unfold ensureEntry_with. rewrite (i32_id (maxEntry s + 1 + 1)) by (unfold is_i32; lia).
        rewrite ensureSize_with_grown by (unfold MAX_INT; lia). rewrite G.
        rewrite (bind_of_res _ _ _ _ eq_refl). mon.
        unfold set; cbn [tails hcount heads hv nexts prevs freeList hsize maxEntry].
        rewrite ensureSize_with_grown by (rewrite (hi_np _ _ _ _ _ _ I); unfold MAX_INT; lia).
        rewrite (hi_np _ _ _ _ _ _ I), G.
        rewrite (bind_of_res _ _ _ _ eq_refl). mon.
        unfold ret, set; cbn [tails hcount heads hv nexts prevs freeList hsize maxEntry].
        eexists _, _. split; [reflexivity|]. split; [done|]. split; [done|]. cbv beta iota. exists [].
        pose proof (grown_ge _ _ _ G) as [G1 G2].
        split; [|right; done].
        destruct I. split; cbn [tails hcount heads hv nexts prevs freeList hsize maxEntry]; try done;
          rewrite ?alen_padto by lia; try done; try lia.
        * intros id. apply nchain_pad, hi_next0.
        * intros id. apply nchain_pad, hi_prev0.
        * intros id. eapply Forall2_impl; [apply hi_val0|]. intros e x He. by apply aget_padto_Some.
        * intros e ->%elem_of_list_singleton. rewrite aget_padto by lia.
          case_decide; [done|]. apply hi_prevsM0. lia.
        * intros e He. rewrite aget_padto by lia. case_decide; [done|]. apply hi_prevsM0. lia.
        * intros id e He. specialize (hi_range0 _ _ He). lia.
        * intros e ->%elem_of_list_singleton. lia.
        * intros id e He ->%elem_of_list_singleton. specialize (hi_range0 _ _ He). lia.
        * apply NoDup_singleton.
        * rewrite alen_cons. change (alen (@nil Z)) with 0 in *. lia.
        * intros e He Hno. rewrite aget_padto by lia. case_decide; [done|]. apply hi_blank0; [lia|done].
      + rewrite bind_of_loop by done. eexists _, _. split; [reflexivity|]. done.
    - pose proof (hi_rangeF _ _ _ _ _ _ I e ltac:(constructor)) as He.
      destruct (Z.ltb_spec (- e - 2) (-1)); [|lia].
      replace (- (- e - 2 + 2)) with e by lia. rewrite i32_id by (unfold is_i32; lia).
      pose proof (hi_free _ _ _ _ _ _ I) as [Hf1 Hf2].
      rewrite (bind_rd _ _ _ _ _ Hf1). mon.
      unfold ret, set; cbn [tails hcount heads hv nexts prevs freeList hsize maxEntry].
      eexists _, _. split; [reflexivity|]. split; [done|]. split; [done|]. cbv beta iota. exists F.
      split; [|left; done].
      assert (forall x, x ∈ F ++ [e] <-> x ∈ (e :: F) ++ []) as Hx.
      { intros x. rewrite app_nil_r, elem_of_app, !elem_of_cons. pose proof (not_elem_of_nil x). tauto. }
      destruct I. split; cbn [tails hcount heads hv nexts prevs freeList hsize maxEntry]; try done; try lia.
      + intros x ?%Hx. auto.
      + intros x ?%Hx. auto.
      + intros i x Hi ?%Hx. by apply (hi_disjF0 i x).
      + rewrite app_nil_r in hi_ndF0. rewrite (Permutation_app_comm F [e]). done.
      + rewrite !alen_cons in *. lia.
  Qed.

  Definition eupd (E : Z -> list Z) (id : Z) (l : list Z) : Z -> list Z :=
    fun j => if decide (j = id) then l else E j.

  Ltac hyd := unfold set; cbn [tails hcount heads hv nexts prevs freeList hsize maxEntry] in *.
  Ltac eu := unfold eupd in *;
    match goal with
    | H : context [decide (@eq Z ?a ?b)] |- _ => destruct (decide (@eq Z a b))
    | |- context [decide (@eq Z ?a ?b)] => destruct (decide (@eq Z a b))
    end; subst.

  Lemma hdz_nil_iff L : (forall e, e ∈ L -> 0 <= e) -> hdz (-1) L = -1 <-> L = [].
  Proof.
    intros H. destruct L as [|a L]; cbn; [done|]. specialize (H a ltac:(constructor)). split; [lia|done].
  Qed.

  Definition st_addFirst (s : hydra A) (L : list Z) (id e : Z) (x : A) : hydra A :=
    mkHydra (upd (hv s) e x) (upd (heads s) id e)
      (if decide (L = []) then upd (tails s) id e else tails s) (upd (hcount s) id (alen L + 1))
      (upd (nexts s) e (hdz (-1) L))
      (if decide (L = []) then prevs s else upd (prevs s) (hdz (-1) L) e)
      (freeList s) (hsize s + 1) (maxEntry s).

  Lemma inv_addFirst s m E F e lost id x :
    HInv s m E F [e] lost -> 0 <= id < alen (heads s) ->
    HInv (st_addFirst s (E id) id e x) (<[id := x :: lst m id]> m) (eupd E id (e :: E id)) F [] lost.
  Proof.
    intros I Hid. pose proof (inv_len _ _ _ _ _ _ id I) as Hlen. destruct I.
    assert (e ∈ F ++ [e]) as Hein by (apply elem_of_app; right; constructor).
    pose proof (hi_rangeF0 e Hein) as He.
    assert (forall j, e ∉ E j) as Hen by (intros j Hj; by apply (hi_disjF0 j e)).
    assert (NoDup F /\ e ∉ F) as [HndF HeF].
    { apply NoDup_app in hi_ndF0 as (? & Hd & _). split; [done|]. intros Hin. apply (Hd e Hin). constructor. }
    assert (forall a, a ∈ E id -> 0 <= a) as Hpos by (intros a Ha; specialize (hi_range0 _ _ Ha); lia).
    unfold st_addFirst. split; hyd; rewrite ?alen_upd; try done.
    - case_decide; rewrite ?alen_upd; done.
    - case_decide; rewrite ?alen_upd; done.
    - intros j Hj. eu; [lia|auto].
    - intros j Hj. eu; [by rewrite aget_upd_eq|]. rewrite aget_upd_ne; [auto|lia|done].
    - intros j Hj. rewrite aget_if. eu.
      + rewrite hdz_rev_cons. destruct (decide (E id = [])) as [->|Hne].
        * rewrite aget_upd_eq by lia. done.
        * rewrite hi_tails0 by done. destruct (E id) as [|a r] using rev_ind; [done|].
          rewrite rev_unit. done.
      + destruct (decide (E id = [])); [rewrite aget_upd_ne; [auto|lia|done]|auto].
    - intros j Hj. eu; [rewrite aget_upd_eq by lia; by rewrite alen_cons|].
      rewrite aget_upd_ne; [auto|lia|done].
    - intros j. eu.
      + cbn. split; [rewrite aget_upd_eq by lia; done|]. apply nchain_upd; [lia|done|auto].
      + apply nchain_upd; [lia|done|auto].
    - intros j. destruct (decide (E id = [])) as [Hnil|Hne].
      + eu; [|auto]. rewrite Hnil. cbn. split; [|done]. apply hi_prevsF0, Hein.
      + destruct (E id) as [|h r] eqn:EL; [done|]. cbn [hdz].
        assert (h ∈ E id) as Hh by (rewrite EL; constructor).
        pose proof (hi_nd0 id) as Hnd. rewrite EL in Hnd. apply NoDup_cons in Hnd as [Hhr Hnd].
        pose proof (hi_range0 _ _ Hh). eu.
        * pose proof (hi_prev0 id) as Hp. rewrite EL in Hp.
          change (rev (e :: h :: r)) with (rev (h :: r) ++ [e]). change (rev (h :: r)) with (rev r ++ [h]) in *.
          apply nchain_app in Hp as [Hp1 Hp2]. cbn [hdz] in Hp1.
          rewrite <- app_assoc. apply nchain_app. cbn. split.
          -- apply nchain_upd; [lia| |done]. rewrite <- in_rev'. done.
          -- split; [rewrite aget_upd_eq by lia; done|]. split; [|done].
             rewrite aget_upd_ne; [by apply hi_prevsF0|lia|]. intros ->. by apply (Hen id).
        * apply nchain_upd; [lia| |auto]. rewrite <- in_rev'. intros Hj.
          pose proof (hi_disj0 _ _ _ Hh Hj). congruence.
    - intros j. rewrite lst_insert. eu.
      + rewrite decide_True by done. constructor; [by rewrite aget_upd_eq by lia|].
        eapply Forall2_impl_in; [apply hi_val0|]. intros a y Ha Hy. rewrite aget_upd_ne; [done|lia|].
        intros ->. by apply (Hen id).
      + rewrite decide_False by done. eapply Forall2_impl_in; [apply hi_val0|]. intros a y Ha Hy.
        rewrite aget_upd_ne; [done|lia|]. intros ->. by apply (Hen j).
    - apply fchain_upd; [lia|done|done].
    - intros a Ha. rewrite app_nil_r in Ha.
      assert (a ∈ F ++ [e]) as Ha' by (apply elem_of_app; tauto).
      case_decide; [auto|]. rewrite aget_upd_ne; [auto| |].
      + destruct (E id) as [|h r] eqn:EL; [done|]. cbn. apply Hpos. constructor.
      + intros <-. apply (hi_disjF0 id (hdz (-1) (E id))); [|done].
        destruct (E id); [done|constructor].
    - intros a Ha. case_decide; [auto|]. destruct (E id) as [|h r] eqn:EL; [done|]. cbn.
      assert (h ∈ E id) as Hh by (rewrite EL; constructor). pose proof (hi_range0 _ _ Hh).
      rewrite aget_upd_ne; [auto|lia|lia].
    - intros j a Ha. eu; [|eauto]. apply elem_of_cons in Ha as [->|Ha]; [done|eauto].
    - intros a Ha. apply hi_rangeF0. rewrite app_nil_r in Ha. apply elem_of_app. tauto.
    - intros i j a Hi Hj. unfold eupd in *. destruct (decide (i = id)), (decide (j = id)); subst; try done; [| |by eauto].
      + apply elem_of_cons in Hi as [->|Hi]; [exfalso; by apply (Hen j)|eauto].
      + apply elem_of_cons in Hj as [->|Hj]; [exfalso; by apply (Hen i)|eauto].
    - intros j a Ha. rewrite app_nil_r. intros HF. eu.
      + apply elem_of_cons in Ha as [->|Ha]; [done|]. apply (hi_disjF0 _ _ Ha), elem_of_app. tauto.
      + apply (hi_disjF0 _ _ Ha), elem_of_app. tauto.
    - intros j. eu; [|auto]. by constructor.
    - by rewrite app_nil_r.
    - rewrite total_insert. cbn [length]. lia.
    - rewrite alen_cons in hi_sum0. change (alen (@nil Z)) with 0 in *. lia.
    - intros a Ha Hno. rewrite aget_upd_ne; [apply hi_blank0; [done|]|lia|].
      + intros j Hj. apply (Hno j). eu; [by constructor|done].
      + intros <-. apply (Hno id). eu; [constructor|done].
  Qed.

  Definition st_addLast (s : hydra A) (L : list Z) (id e : Z) (x : A) : hydra A :=
    mkHydra (upd (hv s) e x) (if decide (L = []) then upd (heads s) id e else heads s)
      (upd (tails s) id e) (upd (hcount s) id (alen L + 1))
      (upd (if decide (L = []) then nexts s else upd (nexts s) (hdz (-1) (rev L)) e) e (-1))
      (upd (prevs s) e (hdz (-1) (rev L)))
      (freeList s) (hsize s + 1) (maxEntry s).

  Lemma inv_addLast s m E F e lost id x :
    HInv s m E F [e] lost -> 0 <= id < alen (heads s) ->
    HInv (st_addLast s (E id) id e x) (<[id := lst m id ++ [x]]> m) (eupd E id (E id ++ [e])) F [] lost.
  Proof.
    intros I Hid. pose proof (inv_len _ _ _ _ _ _ id I) as Hlen. destruct I.
    assert (e ∈ F ++ [e]) as Hein by (apply elem_of_app; right; constructor).
    pose proof (hi_rangeF0 e Hein) as He.
    assert (forall j, e ∉ E j) as Hen by (intros j Hj; by apply (hi_disjF0 j e)).
    assert (NoDup F /\ e ∉ F) as [HndF HeF].
    { apply NoDup_app in hi_ndF0 as (? & Hd & _). split; [done|]. intros Hin. apply (Hd e Hin). constructor. }
    assert (E id <> [] -> exists r t, E id = r ++ [t] /\ t ∈ E id /\ 0 <= t <= maxEntry s /\ t ∉ r /\ hdz (-1) (rev (E id)) = t) as HL.
    { intros Hne. destruct (exists_last Hne) as (r & t & EL). exists r, t. rewrite EL, rev_unit.
      assert (t ∈ E id) as Ht by (rewrite EL; apply elem_of_app; right; constructor).
      pose proof (hi_nd0 id) as Hnd. rewrite EL in Hnd. apply NoDup_app in Hnd as (_ & Hd & _).
      split; [done|]. split; [by rewrite <- EL|]. split; [eauto|]. split; [|done].
      intros Hin. apply (Hd t Hin). constructor. }
    assert (alen (if decide (E id = []) then upd (heads s) id e else heads s) = alen (heads s)) as EH
      by (case_decide; rewrite ?alen_upd; done).
    assert (alen (if decide (E id = []) then nexts s else upd (nexts s) (hdz (-1) (rev (E id))) e) = alen (nexts s)) as EN
      by (case_decide; rewrite ?alen_upd; done).
    unfold st_addLast. split; hyd; rewrite ?alen_upd, ?EH, ?EN; try done.
    - intros j Hj. eu; [lia|auto].
    - intros j Hj.
      rewrite aget_if. eu.
      + rewrite hdz_app. cbn [hdz]. destruct (decide (E id = [])) as [->|Hne].
        * rewrite aget_upd_eq by lia. done.
        * rewrite hi_heads0 by done. destruct (E id) as [|a r]; [done|]. done.
      + destruct (decide (E id = [])); [rewrite aget_upd_ne; [auto|lia|done]|auto].
    - intros j Hj.
      eu; [rewrite aget_upd_eq by lia; by rewrite rev_unit|]. rewrite aget_upd_ne; [auto|lia|done].
    - intros j Hj.
      eu; [rewrite aget_upd_eq by lia; by rewrite alen_app|].
      rewrite aget_upd_ne; [auto|lia|done].
    - (* nexts *)
      intros j. assert (0 <= e < alen (if decide (E id = []) then nexts s else upd (nexts s) (hdz (-1) (rev (E id))) e)) as Hr.
      { case_decide; rewrite ?alen_upd; lia. }
      eu.
      + apply nchain_app. cbn [hdz]. split; [|cbn; rewrite aget_upd_eq by done; done].
        apply nchain_upd; [lia|done|]. destruct (decide (E id = [])) as [->|Hne]; [done|].
        destruct (HL Hne) as (r & t & EL & Ht & Htr & Hnr & ->). rewrite EL.
        pose proof (hi_next0 id) as Hc. rewrite EL in Hc. apply nchain_app in Hc as [Hc1 Hc2]. cbn [hdz] in Hc1.
        apply nchain_app. cbn. split; [apply nchain_upd; [lia|done|done]|].
        split; [|done]. rewrite aget_upd_eq by lia. done.
      + apply nchain_upd; [lia|done|]. destruct (decide (E id = [])) as [_|Hne]; [done|].
        destruct (HL Hne) as (r & t & EL & Ht & Htr & Hnr & ->).
        apply nchain_upd; [lia| |done]. intros Hj. pose proof (hi_disj0 _ _ _ Ht Hj). congruence.
    - (* prevs *)
      intros j. eu.
      + rewrite rev_unit. cbn. split; [rewrite aget_upd_eq by lia; done|].
        apply nchain_upd; [lia| |done]. by rewrite <- in_rev'.
      + apply nchain_upd; [lia| |done]. by rewrite <- in_rev'.
    - intros j. rewrite lst_insert. eu.
      + rewrite decide_True by done. apply Forall2_app.
        * eapply Forall2_impl_in; [apply hi_val0|]. intros a y Ha Hy. rewrite aget_upd_ne; [done|lia|].
          intros ->. by apply (Hen id).
        * constructor; [by rewrite aget_upd_eq by lia|constructor].
      + rewrite decide_False by done. eapply Forall2_impl_in; [apply hi_val0|]. intros a y Ha Hy.
        rewrite aget_upd_ne; [done|lia|]. intros ->. by apply (Hen j).
    - apply fchain_upd; [lia|done|]. destruct (decide (E id = [])) as [|Hne]; [done|].
      destruct (HL Hne) as (r & t & EL & Ht & Htr & Hnr & ->). apply fchain_upd; [lia| |done].
      intros HF. apply (hi_disjF0 _ _ Ht), elem_of_app. tauto.
    - intros a Ha. rewrite app_nil_r in Ha. rewrite aget_upd_ne; [|lia|congruence].
      apply hi_prevsF0, elem_of_app. tauto.
    - intros a Ha. rewrite aget_upd_ne; [|lia|lia]. auto.
    - intros j a Ha. eu; [|eauto]. apply elem_of_app in Ha as [Ha| ->%elem_of_list_singleton]; [eauto|done].
    - intros a Ha. apply hi_rangeF0. rewrite app_nil_r in Ha. apply elem_of_app. tauto.
    - intros i j a Hi Hj. unfold eupd in *. destruct (decide (i = id)), (decide (j = id)); subst; try done; [| |by eauto].
      + apply elem_of_app in Hi as [Hi| ->%elem_of_list_singleton]; [eauto|exfalso; by apply (Hen j)].
      + apply elem_of_app in Hj as [Hj| ->%elem_of_list_singleton]; [eauto|exfalso; by apply (Hen i)].
    - intros j a Ha. rewrite app_nil_r. intros HF. eu.
      + apply elem_of_app in Ha as [Ha| ->%elem_of_list_singleton]; [|done]. apply (hi_disjF0 _ _ Ha), elem_of_app. tauto.
      + apply (hi_disjF0 _ _ Ha), elem_of_app. tauto.
    - intros j. eu; [|auto]. apply NoDup_app. split; [done|]. split; [|apply NoDup_singleton].
      intros a Ha ->%elem_of_list_singleton. by apply (Hen id).
    - by rewrite app_nil_r.
    - rewrite total_insert, app_length. cbn [length]. lia.
    - rewrite alen_cons in hi_sum0. change (alen (@nil Z)) with 0 in *. lia.
    - intros a Ha Hno. rewrite aget_upd_ne; [apply hi_blank0; [done|]|lia|].
      + intros j Hj. apply (Hno j). eu; [apply elem_of_app; by left|done].
      + intros <-. apply (Hno id). eu; [apply elem_of_app; right; constructor|done].
  Qed.

  Definition st_removeFirst (s : hydra A) (r : list Z) (id e : Z) : hydra A :=
    mkHydra (upd (hv s) e dflt) (upd (heads s) id (hdz (-1) r))
      (if decide (r = []) then upd (tails s) id (-1) else tails s) (upd (hcount s) id (alen r))
      (upd (nexts s) e (freeList s))
      (if decide (r = []) then prevs s else upd (prevs s) (hdz (-1) r) (-1))
      (- e - 2) (hsize s - 1) (maxEntry s).

  Lemma inv_removeFirst s m E F lost id e r :
    HInv s m E F [] lost -> 0 <= id < alen (heads s) -> E id = e :: r ->
    HInv (st_removeFirst s r id e) (<[id := List.tl (lst m id)]> m) (eupd E id r) (e :: F) [] lost.
  Proof.
    intros I Hid EL. pose proof (inv_len _ _ _ _ _ _ id I) as Hlen. destruct I.
    assert (e ∈ E id) as Hein by (rewrite EL; constructor).
    pose proof (hi_range0 _ _ Hein) as He.
    assert (forall j, j <> id -> e ∉ E j) as Hen.
    { intros j Hne Hj. apply Hne. eapply hi_disj0; [exact Hj|exact Hein]. }
    pose proof (hi_nd0 id) as Hnd. rewrite EL in Hnd. apply NoDup_cons in Hnd as [Her Hnd].
    assert (forall a, a ∈ r -> a ∈ E id) as Hri by (intros a Ha; rewrite EL; by constructor).
    assert (r <> [] -> exists b r', r = b :: r' /\ b ∈ E id /\ 0 <= b <= maxEntry s /\ b <> e /\ b ∉ r') as HL.
    { destruct r as [|b r']; [done|]. intros _. exists b, r'. assert (b ∈ E id) by (apply Hri; constructor).
      apply NoDup_cons in Hnd as [? _].
      split; [done|]. split; [done|]. split; [eauto|]. split; [|done]. intros ->. apply Her. constructor. }
    pose proof (hi_val0 id) as HV. rewrite EL in HV. apply Forall2_cons_inv_l in HV as (x & l & Hx & Hl & E1).
    rewrite app_nil_r in *. assert (e ∉ F) as HeF by eauto.
    unfold st_removeFirst. split; hyd; rewrite ?app_nil_r, ?alen_upd; try done.
    - case_decide; rewrite ?alen_upd; done.
    - case_decide; rewrite ?alen_upd; done.
    - intros j Hj. eu; [lia|auto].
    - intros j Hj. eu; [by rewrite aget_upd_eq by lia|]. rewrite aget_upd_ne; [auto|lia|done].
    - intros j Hj. rewrite aget_if. eu.
      + destruct (decide (r = [])) as [->|Hne].
        * rewrite aget_upd_eq by lia. done.
        * rewrite hi_tails0 by done. rewrite EL, hdz_rev_cons.
          destruct (exists_last Hne) as (r1 & t & ->). by rewrite rev_unit.
      + destruct (decide (r = [])); [rewrite aget_upd_ne; [auto|lia|done]|auto].
    - intros j Hj. eu; [rewrite aget_upd_eq by lia; done|]. rewrite aget_upd_ne; [auto|lia|done].
    - intros j. eu.
      + apply nchain_upd; [lia|done|]. pose proof (hi_next0 id) as Hc. rewrite EL in Hc. apply Hc.
      + apply nchain_upd; [lia|auto|auto].
    - intros j. destruct (decide (r = [])) as [->|Hne].
      + eu; [done|auto].
      + destruct (HL Hne) as (b & r' & -> & Hb & Hbr & Hbe & Hbr'). cbn [hdz]. eu.
        * pose proof (hi_prev0 id) as Hp. rewrite EL in Hp.
          change (rev (e :: b :: r')) with ((rev r' ++ [b]) ++ [e]) in Hp.
          change (rev (b :: r')) with (rev r' ++ [b]).
          rewrite <- app_assoc in Hp. apply nchain_app in Hp as [Hp1 Hp2]. cbn [hdz app] in Hp1.
          apply nchain_app. cbn. split.
          -- apply nchain_upd; [lia| |done]. by rewrite <- in_rev'.
          -- split; [rewrite aget_upd_eq by lia; done|done].
        * apply nchain_upd; [lia| |auto]. rewrite <- in_rev'. intros Hj.
          pose proof (hi_disj0 _ _ _ Hb Hj). congruence.
    - intros j. rewrite lst_insert. eu.
      + rewrite decide_True by done. rewrite E1. cbn [List.tl].
        eapply Forall2_impl_in; [apply Hl|]. intros a y Ha Hy. rewrite aget_upd_ne; [done|lia|].
        intros ->. done.
      + rewrite decide_False by done. eapply Forall2_impl_in; [apply hi_val0|]. intros a y Ha Hy.
        rewrite aget_upd_ne; [done|lia|]. intros ->. by apply (Hen j).
    - cbn. split; [rewrite aget_upd_eq by lia; by f_equal|]. apply fchain_upd; [lia|done|done].
    - intros a Ha.
      assert (aget (prevs s) a = Some (-1) /\ a ∉ r) as [Hpa Har].
      { apply elem_of_cons in Ha as [->|Ha].
        - split; [|done]. pose proof (hi_prev0 id) as Hp. rewrite EL in Hp. cbn in Hp.
          apply nchain_app in Hp as [_ Hp]. apply Hp.
        - split; [auto|]. intros Har. by apply (hi_disjF0 id a); auto. }
      case_decide as Hd; [done|]. destruct (HL Hd) as (b & r' & -> & Hb & Hbr & Hbe & Hbr'). cbn [hdz].
      rewrite aget_upd_ne; [done|lia|]. intros ->. apply Har. constructor.
    - intros a Ha. case_decide as Hd; [auto|].
      destruct (HL Hd) as (b & r' & -> & Hb & Hbr & Hbe & Hbr'). cbn [hdz].
      rewrite aget_upd_ne; [auto|lia|lia].
    - intros j a Ha. eu; eauto.
    - intros a [->|Ha]%elem_of_cons; [done|auto].
    - intros i j a Hi Hj. unfold eupd in *. destruct (decide (i = id)), (decide (j = id)); subst; eauto.
    - intros j a Ha [->|HF]%elem_of_cons; eu; try done.
      + by apply (Hen j).
      + by apply (hi_disjF0 id a); auto.
      + by apply (hi_disjF0 j a); auto.
    - intros j. eu; auto.
    - by constructor.
    - rewrite total_insert, E1. cbn [List.tl length]. lia.
    - rewrite alen_cons. change (alen (@nil Z)) with 0 in *. lia.
    - intros a Ha Hno. destruct (decide (a = e)) as [->|]; [by rewrite aget_upd_eq by lia|].
      rewrite aget_upd_ne; [apply hi_blank0; [done|]|lia|done].
      intros j Hj. apply (Hno j). eu; [|done]. rewrite EL in Hj. by apply elem_of_cons in Hj as [->|?].
  Qed.

  Definition st_removeLast (s : hydra A) (r : list Z) (id e : Z) : hydra A :=
    mkHydra (upd (hv s) e dflt) (if decide (r = []) then upd (heads s) id (-1) else heads s)
      (upd (tails s) id (hdz (-1) (rev r))) (upd (hcount s) id (alen r))
      (upd (if decide (r = []) then nexts s else upd (nexts s) (hdz (-1) (rev r)) (-1)) e (freeList s))
      (if decide (r = []) then prevs s else upd (prevs s) e (-1))
      (- e - 2) (hsize s - 1) (maxEntry s).

  Lemma inv_removeLast s m E F lost id e r :
    HInv s m E F [] lost -> 0 <= id < alen (heads s) -> E id = r ++ [e] ->
    HInv (st_removeLast s r id e) (<[id := take (length (lst m id) - 1) (lst m id)]> m) (eupd E id r) (e :: F) [] lost.
  Proof.
    intros I Hid EL. pose proof (inv_len _ _ _ _ _ _ id I) as Hlen. destruct I.
    assert (e ∈ E id) as Hein by (rewrite EL; apply elem_of_app; right; constructor).
    pose proof (hi_range0 _ _ Hein) as He.
    assert (forall j, j <> id -> e ∉ E j) as Hen.
    { intros j Hne Hj. apply Hne. eapply hi_disj0; [exact Hj|exact Hein]. }
    pose proof (hi_nd0 id) as Hnd. rewrite EL in Hnd. apply NoDup_app in Hnd as (Hnd & Hdr & _).
    assert (e ∉ r) as Her by (intros Hin; apply (Hdr e Hin); constructor).
    assert (forall a, a ∈ r -> a ∈ E id) as Hri by (intros a Ha; rewrite EL; apply elem_of_app; tauto).
    assert (r <> [] -> exists b r', r = r' ++ [b] /\ b ∈ E id /\ 0 <= b <= maxEntry s /\ b <> e /\ b ∉ r' /\ hdz (-1) (rev r) = b) as HL.
    { intros Hne. destruct (exists_last Hne) as (r' & b & ->). exists b, r'.
      assert (b ∈ r' ++ [b]) as Hb by (apply elem_of_app; right; constructor).
      apply NoDup_app in Hnd as (_ & Hd2 & _). rewrite rev_unit.
      split; [done|]. split; [auto|]. split; [eauto|]. split; [by intros ->|].
      split; [|done]. intros Hin. apply (Hd2 b Hin). constructor. }
    pose proof (hi_val0 id) as HV. rewrite EL in HV. apply Forall2_app_inv_l in HV as (l & l2 & Hl & Hx & E1).
    inversion Hx as [|? x ? ? Hx1 Hx2]; subst. inversion Hx2; subst.
    assert (take (length (lst m id) - 1) (lst m id) = l) as ET.
    { rewrite E1, app_length. cbn. apply take_app_alt. lia. }
    rewrite app_nil_r in *. assert (e ∉ F) as HeF by eauto.
    assert (alen (if decide (r = []) then upd (heads s) id (-1) else heads s) = alen (heads s)) as EH
      by (case_decide; rewrite ?alen_upd; done).
    assert (alen (if decide (r = []) then nexts s else upd (nexts s) (hdz (-1) (rev r)) (-1)) = alen (nexts s)) as EN
      by (case_decide; rewrite ?alen_upd; done).
    unfold st_removeLast. split; hyd; rewrite ?app_nil_r, ?alen_upd, ?EH, ?EN; try done.
    - case_decide; rewrite ?alen_upd; done.
    - intros j Hj. eu; [lia|auto].
    - intros j Hj. rewrite aget_if. eu.
      + destruct (decide (r = [])) as [->|Hne].
        * rewrite aget_upd_eq by lia. done.
        * rewrite hi_heads0 by done. rewrite EL. by destruct r.
      + destruct (decide (r = [])); [rewrite aget_upd_ne; [auto|lia|done]|auto].
    - intros j Hj. eu; [by rewrite aget_upd_eq by lia|]. rewrite aget_upd_ne; [auto|lia|done].
    - intros j Hj. eu; [rewrite aget_upd_eq by lia; done|]. rewrite aget_upd_ne; [auto|lia|done].
    - intros j. destruct (decide (r = [])) as [->|Hne].
      + eu; [done|]. apply nchain_upd; [lia|auto|auto].
      + destruct (HL Hne) as (b & r' & -> & Hb & Hbr & Hbe & Hbr' & ->). eu.
        * apply nchain_upd; [lia|done|]. pose proof (hi_next0 id) as Hc. rewrite EL in Hc.
          rewrite <- app_assoc in Hc. apply nchain_app in Hc as [Hc1 _]. cbn [hdz app] in Hc1.
          apply nchain_app. cbn. split; [apply nchain_upd; [lia|done|done]|].
          split; [rewrite aget_upd_eq by lia; done|done].
        * apply nchain_upd; [lia|auto|]. apply nchain_upd; [lia| |auto].
          intros Hj. pose proof (hi_disj0 _ _ _ Hb Hj). congruence.
    - intros j. assert (forall l, e ∉ l -> nchain (prevs s) l (-1) -> nchain (if decide (r = []) then prevs s else upd (prevs s) e (-1)) l (-1)) as HP.
      { intros l' Hl' Hc. case_decide; [done|]. apply nchain_upd; [lia|done|done]. }
      eu; apply HP; rewrite <- ?in_rev'; auto.
      pose proof (hi_prev0 id) as Hp. rewrite EL, rev_unit in Hp. apply Hp.
    - intros j. rewrite lst_insert. eu.
      + rewrite decide_True by done.
        eapply Forall2_impl_in; [apply Hl|]. intros a y Ha Hy. rewrite aget_upd_ne; [done|lia|].
        intros ->. done.
      + rewrite decide_False by done. eapply Forall2_impl_in; [apply hi_val0|]. intros a y Ha Hy.
        rewrite aget_upd_ne; [done|lia|]. intros ->. by apply (Hen j).
    - cbn. split; [rewrite aget_upd_eq by lia; by f_equal|]. apply fchain_upd; [lia|done|].
      case_decide as Hd; [done|]. destruct (HL Hd) as (b & r' & -> & Hb & Hbr & Hbe & Hbr' & ->).
      apply fchain_upd; [lia| |done]. by apply (hi_disjF0 id).
    - intros a Ha. apply elem_of_cons in Ha as [->|Ha].
      + case_decide as Hd; [|rewrite aget_upd_eq by lia; done].
        pose proof (hi_prev0 id) as Hp. rewrite EL, rev_unit, Hd in Hp. apply Hp.
      + case_decide; [auto|]. rewrite aget_upd_ne; [auto|lia|]. by intros ->.
    - intros a Ha. case_decide as Hd; [auto|]. rewrite aget_upd_ne; [auto|lia|lia].
    - intros j a Ha. eu; eauto.
    - intros a [->|Ha]%elem_of_cons; [done|auto].
    - intros i j a Hi Hj. unfold eupd in *. destruct (decide (i = id)), (decide (j = id)); subst; eauto.
    - intros j a Ha [->|HF]%elem_of_cons; eu; try done.
      + by apply (Hen j).
      + by apply (hi_disjF0 id a); auto.
      + by apply (hi_disjF0 j a); auto.
    - intros j. eu; auto.
    - by constructor.
    - rewrite total_insert, ET, E1, app_length. cbn [length]. lia.
    - rewrite alen_cons. change (alen (@nil Z)) with 0 in *. lia.
    - intros a Ha Hno. destruct (decide (a = e)) as [->|]; [by rewrite aget_upd_eq by lia|].
      rewrite aget_upd_ne; [apply hi_blank0; [done|]|lia|done].
      intros j Hj. apply (Hno j). eu; [|done]. rewrite EL in Hj.
      apply elem_of_app in Hj as [?|Hj]; [done|]. by apply elem_of_list_singleton in Hj.
  Qed.

  Lemma bind_if {S X Y} (b : bool) (m1 m2 : M S X) (k : X -> M S Y) t :
    bind (if b then m1 else m2) k t = if b then bind m1 k t else bind m2 k t.
  Proof. by destruct b. Qed.

  (** [L e] is what the entries of list [id] become when entry [e] was added. *)
  Definition add_post (s : hydra A) (m m' : lists A) E F lost id (L : Z -> list Z) (r : res Z) (s' : hydra A) : Prop :=
    match r with
    | Ok e => 0 <= id /\ exists F', HInv s' m' (eupd E id (L e)) F' [] lost /\ 0 <= e <= maxEntry s' /\
                (maxEntry s' = maxEntry s \/ maxEntry s' = maxEntry s + 1 /\ F' = [])
    | Exn x => x = IndexOutOfBounds /\ (id < 0 \/ 2 ^ 30 <= id) /\ HInv s' m E F [] lost /\
                maxEntry s' = maxEntry s
    | Loop => 2 ^ 30 <= id \/ maxEntry s + 1 = 2 ^ 30
    end.

  Lemma h_addFirst_ok s m E F lost id x : HInv s m E F [] lost -> is_i32 id ->
    exists r s', h_addFirst dflt id x s = (r, s') /\
      add_post s m (<[id := x :: lst m id]> m) E F lost id (fun e => e :: E id) r s'.
  Proof.
    intros I Hid. unfold h_addFirst.
    destruct (ensureList_ok _ _ _ _ id _ I Hid) as (r1 & s1 & E1 & H1).
    destruct r1 as [[]|?|]; [|done|unfold bind at 1; rewrite E1; eexists _, _; split; [reflexivity|]; by left].
    rewrite (bind_ok _ _ _ _ _ E1). clear E1. destruct H1 as (I1 & Em & Hd).
    destruct (decide (0 <= id < alen (heads s1))) as [Hr|Hr].
    2:{ unfold bind at 1. rewrite rd_bad by done. eexists _, _. split; [reflexivity|].
        unfold add_post. split; [done|]. split; [|split; [done|done]].
        case_decide; [|lia]. right. change (2 ^ 30) with 1073741824. unfold MAX_INT in Hd. lia. }
    rewrite (bind_rd _ _ _ _ _ (hi_heads _ _ _ _ _ _ I1 id Hr)).
    destruct (allocateEntry_ok _ _ _ _ _ I1) as (r2 & s2 & E2 & Eh & Et & H2).
    destruct r2 as [e|?|]; [|done|unfold bind at 1; rewrite E2; eexists _, _; split; [reflexivity|]; right; lia].
    rewrite (bind_ok _ _ _ _ _ E2). clear E2. destruct H2 as (F' & I2 & Hm).
    pose proof (inv_addFirst _ _ _ _ _ _ id x I2 ltac:(rewrite Eh; done)) as I3.
    pose proof (inv_small _ _ _ _ _ _ I2) as [Hs1 Hs2]. pose proof (inv_len _ _ _ _ _ _ id I2) as Hlen.
    pose proof (total_ge m id) as Htg.
    assert (0 <= e <= maxEntry s2) as He by (apply I2; apply elem_of_app; right; constructor).
    pose proof (hi_max _ _ _ _ _ _ I2) as Hmx. pose proof (hi_size _ _ _ _ _ _ I2) as Hsz.
    rewrite <- Eh in Hr.
    assert (forall a, a ∈ E id -> 0 <= a) as Hpos by (intros a Ha; apply (hi_range _ _ _ _ _ _ I2) in Ha; lia).
    assert (alen (hv s2) = alen (nexts s2) /\ alen (prevs s2) = alen (nexts s2) /\ alen (tails s2) = alen (heads s2) /\
      alen (hcount s2) = alen (heads s2)) as (L1 & L2 & L3 & L4) by (repeat split; apply I2).
    eexists (Ok e), (st_addFirst s2 (E id) id e x). split.
    - clear I3. unfold wr_hv, wr_heads, wr_hcount, wr_tails, wr_prevs, wr_nexts, st_addFirst.
      rewrite bind_wr by lia. hyd. rewrite bind_wr by (hyd; lia). hyd.
      erewrite bind_rd by (hyd; apply I2; done). rewrite bind_wr by (hyd; lia). hyd.
      rewrite i32_id by (unfold is_i32; lia). rewrite bind_if.
      destruct (Z.eqb_spec (hdz (-1) (E id)) (-1)) as [Hn|Hn].
      + rewrite hdz_nil_iff in Hn by done. rewrite !decide_True by done.
        rewrite bind_wr by (hyd; lia). hyd. rewrite bind_wr by (hyd; lia). hyd. rewrite bind_modify.
        unfold ret. hyd. rewrite i32_id by (unfold is_i32; lia). done.
      + rewrite hdz_nil_iff in Hn by done. rewrite !decide_False by done.
        destruct (E id) as [|b r] eqn:EL; [done|]. cbn [hdz].
        assert (b ∈ E id) as Hb by (rewrite EL; constructor). apply (hi_range _ _ _ _ _ _ I2) in Hb.
        rewrite bind_wr by (hyd; lia). hyd. rewrite bind_wr by (hyd; lia). hyd. rewrite bind_modify.
        unfold ret. hyd. rewrite i32_id by (unfold is_i32; lia). done.
    - unfold add_post. split; [lia|]. exists F'. split; [exact I3|].
      cbn [maxEntry st_addFirst]. split; [done|]. rewrite <- Em. done.
  Qed.

  Lemma h_addLast_ok s m E F lost id x : HInv s m E F [] lost -> is_i32 id ->
    exists r s', h_addLast dflt id x s = (r, s') /\
      add_post s m (<[id := lst m id ++ [x]]> m) E F lost id (fun e => E id ++ [e]) r s'.
  Proof.
    intros I Hid. unfold h_addLast.
    destruct (ensureList_ok _ _ _ _ id _ I Hid) as (r1 & s1 & E1 & H1).
    destruct r1 as [[]|?|]; [|done|unfold bind at 1; rewrite E1; eexists _, _; split; [reflexivity|]; by left].
    rewrite (bind_ok _ _ _ _ _ E1). clear E1. destruct H1 as (I1 & Em & Hd).
    destruct (decide (0 <= id < alen (heads s1))) as [Hr|Hr].
    2:{ unfold bind at 1. rewrite rd_bad by (rewrite (hi_qt _ _ _ _ _ _ I1); done). eexists _, _. split; [reflexivity|].
        unfold add_post. split; [done|]. split; [|split; [done|done]].
        case_decide; [|lia]. right. change (2 ^ 30) with 1073741824. unfold MAX_INT in Hd. lia. }
    rewrite (bind_rd _ _ _ _ _ (hi_tails _ _ _ _ _ _ I1 id Hr)).
    destruct (allocateEntry_ok _ _ _ _ _ I1) as (r2 & s2 & E2 & Eh & Et & H2).
    destruct r2 as [e|?|]; [|done|unfold bind at 1; rewrite E2; eexists _, _; split; [reflexivity|]; right; lia].
    rewrite (bind_ok _ _ _ _ _ E2). clear E2. destruct H2 as (F' & I2 & Hm).
    pose proof (inv_addLast _ _ _ _ _ _ id x I2 ltac:(rewrite Eh; done)) as I3.
    pose proof (inv_small _ _ _ _ _ _ I2) as [Hs1 Hs2]. pose proof (inv_len _ _ _ _ _ _ id I2) as Hlen.
    pose proof (total_ge m id) as Htg.
    assert (0 <= e <= maxEntry s2) as He by (apply I2; apply elem_of_app; right; constructor).
    pose proof (hi_max _ _ _ _ _ _ I2) as Hmx. pose proof (hi_size _ _ _ _ _ _ I2) as Hsz.
    rewrite <- Eh in Hr.
    assert (forall a, a ∈ rev (E id) -> 0 <= a <= maxEntry s2) as Hpos.
    { intros a Ha. rewrite <- in_rev' in Ha. by apply (hi_range _ _ _ _ _ _ I2) in Ha. }
    assert (alen (hv s2) = alen (nexts s2) /\ alen (prevs s2) = alen (nexts s2) /\ alen (tails s2) = alen (heads s2) /\
      alen (hcount s2) = alen (heads s2)) as (L1 & L2 & L3 & L4) by (repeat split; apply I2).
    eexists (Ok e), (st_addLast s2 (E id) id e x). split.
    - clear I3. unfold wr_hv, wr_heads, wr_hcount, wr_tails, wr_prevs, wr_nexts, st_addLast.
      rewrite bind_wr by lia. hyd. rewrite bind_wr by (hyd; lia). hyd.
      erewrite bind_rd by (hyd; apply I2; done). rewrite bind_wr by (hyd; lia). hyd.
      rewrite i32_id by (unfold is_i32; lia). rewrite bind_if.
      destruct (Z.eqb_spec (hdz (-1) (rev (E id))) (-1)) as [Hn|Hn].
      + rewrite hdz_nil_iff in Hn by (intros a Ha; apply Hpos in Ha; lia).
        assert (E id = []) as Hn' by (apply (f_equal (@rev Z)) in Hn; by rewrite rev_involutive in Hn).
        rewrite !decide_True by done.
        rewrite bind_wr by (hyd; lia). hyd. rewrite bind_wr by (hyd; lia). hyd.
        rewrite bind_wr by (hyd; lia). hyd. rewrite bind_modify.
        unfold ret. hyd. rewrite i32_id by (unfold is_i32; lia). done.
      + assert (E id <> []) as Hn' by (intros Hx; by rewrite Hx in Hn).
        rewrite !decide_False by done.
        assert (0 <= hdz (-1) (rev (E id)) <= maxEntry s2) as Hb.
        { destruct (rev (E id)) as [|b r]; [done|]. cbn. apply Hpos. constructor. }
        rewrite bind_wr by (hyd; lia). hyd. rewrite bind_wr by (hyd; rewrite ?alen_upd; lia). hyd.
        rewrite bind_wr by (hyd; lia). hyd. rewrite bind_modify.
        unfold ret. hyd. rewrite i32_id by (unfold is_i32; lia). done.
    - unfold add_post. split; [lia|]. exists F'. split; [exact I3|].
      cbn [maxEntry st_addLast]. split; [done|]. rewrite <- Em. done.
  Qed.

  (** ** Removal *)
  Lemma validate_ok s m E F lost id (start : hydra A -> list Z) (f : list Z -> list Z) :
    HInv s m E F [] lost -> (forall id, 0 <= id < alen (heads s) -> aget (start s) id = Some (hdz (-1) (f (E id)))) ->
    (forall l, f l = [] <-> l = []) -> (forall l a, a ∈ f l -> a ∈ l) ->
    validate id start s = (if decide (lst m id = []) then Exn NoSuchElement else Ok (hdz (-1) (f (E id))), s) /\
    (lst m id <> [] -> 0 <= id < alen (heads s)).
  Proof.
    intros I Hst Hf Hf2. pose proof (inv_len _ _ _ _ _ _ id I) as Hlen.
    assert (lst m id = [] <-> E id = []) as Hiff.
    { unfold alen in Hlen. split; intros Hx; rewrite Hx in Hlen; apply length_zero_iff_nil; cbn in Hlen; lia. }
    split.
    2:{ intros Hne. destruct (decide (0 <= id < alen (heads s))); [done|].
        exfalso. apply Hne, Hiff. by apply (hi_ids _ _ _ _ _ _ I). }
    unfold validate. mon. rewrite (hi_size _ _ _ _ _ _ I).
    destruct (Z.eqb_spec (total m) 0) as [H0|H0].
    { pose proof (total_ge m id). rewrite decide_True; [done|]. apply length_zero_iff_nil. lia. }
    mon. rewrite Z.geb_leb.
    destruct (Z.ltb_spec id 0); [rewrite decide_True; [done|]; apply Hiff, (hi_ids _ _ _ _ _ _ I); lia|].
    destruct (Z.leb_spec (alen (heads s)) id); [rewrite decide_True; [done|]; apply Hiff, (hi_ids _ _ _ _ _ _ I); lia|].
    cbn [orb]. erewrite bind_rd by (apply Hst; lia).
    destruct (f (E id)) as [|a r] eqn:EL; cbn [hdz].
    - change (-1 <? 0) with true. cbv iota. rewrite decide_True; [done|]. by apply Hiff, Hf.
    - assert (0 <= a) as Ha.
      { eapply (hi_range _ _ _ _ _ _ I id). apply Hf2. rewrite EL. constructor. }
      destruct (Z.ltb_spec a 0); [lia|]. rewrite decide_False; [done|].
      rewrite Hiff, <- Hf. by rewrite EL.
  Qed.

  Lemma bind_ret_match {X} (r : res X) (s : hydra A) Y (k : X -> M (hydra A) Y) (m : M (hydra A) X) :
    m s = (r, s) -> bind m k s = match r with Ok x => k x s | Exn e => (Exn e, s) | Loop => (Loop, s) end.
  Proof. intros H. unfold bind. rewrite H. by destruct r. Qed.

  Lemma h_removeFirst_ok s m E F lost id : HInv s m E F [] lost ->
    match lst m id with
    | [] => h_removeFirst dflt id s = (Exn NoSuchElement, s)
    | x :: l => exists s' e r F', h_removeFirst dflt id s = (Ok x, s') /\ E id = e :: r /\
                 HInv s' (<[id := l]> m) (eupd E id r) F' [] lost /\ maxEntry s' = maxEntry s
    end.
  Proof.
    intros I. unfold h_removeFirst.
    destruct (validate_ok s m E F lost id heads (fun l => l) I) as [Ev Hr];
      [apply I|done|done|].
    rewrite (bind_ret_match _ _ _ _ _ Ev). clear Ev.
    pose proof (hi_val _ _ _ _ _ _ I id) as HV. pose proof (inv_len _ _ _ _ _ _ id I) as Hlen.
    destruct (lst m id) as [|x l] eqn:EM; [done|]. rewrite decide_False by done. specialize (Hr ltac:(done)).
    destruct (E id) as [|e r] eqn:EL; [inversion HV|]. apply Forall2_cons in HV as [Hv HV]. cbn [hdz].
    pose proof (inv_removeFirst s m E F lost id e r I Hr EL) as I'. rewrite EM in I'. cbn [List.tl] in I'.
    exists (st_removeFirst s r id e), e, r. eexists _. split; [|split; [done|split; [exact I'|done]]].
    pose proof (hi_next _ _ _ _ _ _ I id) as Hn. rewrite EL in Hn. destruct Hn as [Hn _].
    pose proof (hi_heads _ _ _ _ _ _ I id Hr) as HH. pose proof (hi_tails _ _ _ _ _ _ I id Hr) as HT.
    pose proof (hi_count _ _ _ _ _ _ I id Hr) as HC. rewrite EL in HH, HT, HC. rewrite hdz_rev_cons in HT.
    pose proof (inv_small _ _ _ _ _ _ I) as [Hs1 Hs2]. pose proof (total_ge m id) as Htg.
    assert (forall a, a ∈ e :: r -> 0 <= a <= maxEntry s) as Hpos by (intros a Ha; rewrite <- EL in Ha; by apply (hi_range _ _ _ _ _ _ I) in Ha).
    pose proof (Hpos e ltac:(constructor)) as He. pose proof (hi_max _ _ _ _ _ _ I) as Hmx.
    assert (alen (hv s) = alen (nexts s) /\ alen (prevs s) = alen (nexts s) /\ alen (tails s) = alen (heads s) /\
      alen (hcount s) = alen (heads s)) as (L1 & L2 & L3 & L4) by (repeat split; apply I).
    pose proof (hi_nd _ _ _ _ _ _ I id) as Hnd. rewrite EL in Hnd. apply NoDup_cons in Hnd as [Her _].
    pose proof (hi_size _ _ _ _ _ _ I) as Hsz. rewrite EM in Htg. cbn [length] in Htg, Hlen.
    rewrite alen_cons in *.
    clear I I'. unfold wr_hv, wr_heads, wr_hcount, wr_tails, wr_prevs, wr_nexts, addToFreeList, st_removeFirst.
    erewrite bind_rd by (hyd; exact Hn). rewrite bind_wr by lia. hyd.
    erewrite bind_rd by (hyd; exact HC). rewrite bind_wr by (hyd; lia). hyd.
    erewrite bind_rd by (hyd; exact HT). rewrite i32_id by (unfold is_i32; lia).
    replace (alen r + 1 - 1) with (alen r) by lia. pose proof (alen_nonneg r).
    destruct r as [|b r]; cbn [rev hdz].
    - rewrite Z.eqb_refl. rewrite bind_wr by (hyd; lia). hyd. erewrite bind_rd by (hyd; exact Hn). cbn [hdz].
      change (negb (-1 =? -1)) with false. cbv iota. mon. erewrite bind_rd by (hyd; exact Hv).
      rewrite bind_wr by (hyd; lia). hyd. rewrite bind_modify. mon. unfold wr_nexts. rewrite bind_wr by (hyd; lia). hyd. mon. unfold ret. hyd.
      rewrite !i32_id by (unfold is_i32; rewrite ?(@alen_nil Z); lia). done.
    - assert (hdz e (rev r ++ [b]) <> e) as Hne.
      { intros Hx. apply Her. rewrite in_rev'. cbn. destruct (rev r); cbn in *; subst; [constructor|constructor]. }
      destruct (Z.eqb_spec (hdz e (rev r ++ [b])) e); [done|]. mon. erewrite bind_rd by (hyd; exact Hn). cbn [hdz].
      pose proof (Hpos b ltac:(constructor; constructor)) as Hb.
      destruct (Z.eqb_spec b (-1)); [lia|]. cbn [negb]. mon. erewrite bind_rd by (hyd; exact Hn). cbn [hdz].
      rewrite bind_wr by (hyd; lia). hyd. erewrite bind_rd by (hyd; exact Hv).
      rewrite bind_wr by (hyd; lia). hyd. rewrite bind_modify. mon. unfold wr_nexts. rewrite bind_wr by (hyd; lia). hyd. mon. unfold ret. hyd.
      rewrite !i32_id by (unfold is_i32; rewrite ?(@alen_nil Z); lia). done.
  Qed.

  Lemma h_removeLast_ok s m E F lost id : HInv s m E F [] lost ->
    match last (lst m id) with
    | None => h_removeLast dflt id s = (Exn NoSuchElement, s)
    | Some x => exists s' e r F', h_removeLast dflt id s = (Ok x, s') /\ E id = r ++ [e] /\
                 HInv s' (<[id := take (length (lst m id) - 1) (lst m id)]> m) (eupd E id r) F' [] lost /\ maxEntry s' = maxEntry s
    end.
  Proof.
    intros I. unfold h_removeLast.
    destruct (validate_ok s m E F lost id tails (@rev Z) I) as [Ev Hr];
      [apply I| |intros l a; by rewrite <- in_rev'|].
    { intros l. split; [|by intros ->]. intros Hx. apply (f_equal (@rev Z)) in Hx. by rewrite rev_involutive in Hx. }
    rewrite (bind_ret_match _ _ _ _ _ Ev). clear Ev.
    pose proof (hi_val _ _ _ _ _ _ I id) as HV. pose proof (inv_len _ _ _ _ _ _ id I) as Hlen.
    destruct (last (lst m id)) as [x|] eqn:ELast.
    2:{ apply last_None in ELast. by rewrite decide_True. }
    apply last_Some in ELast as [l EM].
    assert (lst m id <> []) as Hne by (rewrite EM; by destruct l).
    rewrite decide_False by done. specialize (Hr Hne).
    rewrite EM in HV. apply Forall2_app_inv_r in HV as (r & l2 & HV & Hv2 & EL).
    inversion Hv2 as [|e ? ? ? Hv Hv3]; subst. inversion Hv3; subst.
    pose proof (inv_removeLast s m E F lost id e r I Hr EL) as I'.
    exists (st_removeLast s r id e), e, r. eexists _. split; [|split; [done|split; [exact I'|done]]].
    pose proof (hi_prev _ _ _ _ _ _ I id) as Hn. rewrite EL, rev_unit in Hn. destruct Hn as [Hn _].
    pose proof (hi_heads _ _ _ _ _ _ I id Hr) as HH. pose proof (hi_tails _ _ _ _ _ _ I id Hr) as HT.
    pose proof (hi_count _ _ _ _ _ _ I id Hr) as HC. rewrite EL in HH, HT, HC. rewrite hdz_app in HH. cbn [hdz] in HH.
    rewrite EL, rev_unit. rewrite rev_unit in HT. cbn [hdz] in *.
    pose proof (inv_small _ _ _ _ _ _ I) as [Hs1 Hs2]. pose proof (total_ge m id) as Htg.
    assert (forall a, a ∈ r ++ [e] -> 0 <= a <= maxEntry s) as Hpos by (intros a Ha; rewrite <- EL in Ha; by apply (hi_range _ _ _ _ _ _ I) in Ha).
    pose proof (Hpos e ltac:(apply elem_of_app; right; constructor)) as He. pose proof (hi_max _ _ _ _ _ _ I) as Hmx.
    assert (alen (hv s) = alen (nexts s) /\ alen (prevs s) = alen (nexts s) /\ alen (tails s) = alen (heads s) /\
      alen (hcount s) = alen (heads s)) as (L1 & L2 & L3 & L4) by (repeat split; apply I).
    pose proof (hi_nd _ _ _ _ _ _ I id) as Hnd. rewrite EL in Hnd. apply NoDup_app in Hnd as (_ & Her & _).
    assert (e ∉ r) as Her' by (intros Hin; apply (Her e Hin); constructor). clear Her.
    pose proof (hi_size _ _ _ _ _ _ I) as Hsz. rewrite EL in Hlen.
    rewrite alen_app, alen_cons, (@alen_nil Z) in *.
    clear I I'. unfold wr_hv, wr_heads, wr_hcount, wr_tails, wr_prevs, wr_nexts, addToFreeList, st_removeLast.
    erewrite bind_rd by (hyd; exact Hn). rewrite bind_wr by lia. hyd.
    erewrite bind_rd by (hyd; exact HC). rewrite bind_wr by (hyd; lia). hyd.
    erewrite bind_rd by (hyd; exact HH). pose proof (alen_nonneg r). rewrite i32_id by (unfold is_i32; lia).
    replace (alen r + (0 + 1) - 1) with (alen r) by lia.
    destruct (decide (r = [])) as [->|Hne'].
    - cbn [rev hdz]. rewrite Z.eqb_refl. rewrite bind_wr by (hyd; lia). hyd. erewrite bind_rd by (hyd; exact Hn). cbn [hdz rev].
      change (negb (-1 =? -1)) with false. cbv iota. mon. erewrite bind_rd by (hyd; exact Hv).
      rewrite bind_wr by (hyd; lia). hyd. rewrite bind_modify. mon. unfold wr_nexts. rewrite bind_wr by (hyd; lia). hyd. mon. unfold ret. hyd.
      rewrite !i32_id by (unfold is_i32; rewrite ?(@alen_nil Z); lia). done.
    - assert (hdz e r <> e) as Hx.
      { intros Hx. apply Her'. destruct r; cbn in *; subst; [done|constructor]. }
      destruct (Z.eqb_spec (hdz e r) e); [done|]. mon. erewrite bind_rd by (hyd; exact Hn).
      destruct (exists_last Hne') as (r' & b & ->). rewrite rev_unit in *. cbn [hdz] in *.
      pose proof (Hpos b ltac:(rewrite !elem_of_app; left; right; constructor)) as Hb.
      destruct (Z.eqb_spec b (-1)); [lia|]. cbn [negb]. mon. erewrite bind_rd by (hyd; exact Hn).
      rewrite bind_bind. rewrite bind_wr by (hyd; lia). hyd. rewrite bind_wr by (hyd; lia). hyd. erewrite bind_rd by (hyd; exact Hv).
      rewrite bind_wr by (hyd; lia). hyd. rewrite bind_modify. mon. unfold wr_nexts.
      rewrite bind_wr by (hyd; rewrite ?alen_upd; lia). hyd. mon. unfold ret. hyd.
      rewrite !i32_id by (unfold is_i32; rewrite ?(@alen_nil Z); lia). done.
  Qed.

  Lemma h_clear_ok s m E F lost : HInv s m E F [] lost ->
    exists s', h_clear dflt s = (Ok tt, s') /\
      HInv s' ∅ (fun _ => []) [] [] (maxEntry s + 1) /\ maxEntry s' = maxEntry s.
  Proof.
    intros I. unfold h_clear, zoom.
    unfold bind at 1. hyd. rewrite fill_all_ok.
    unfold bind at 1. hyd. rewrite fill_all_ok.
    unfold bind at 1. hyd. rewrite fill_all_ok.
    unfold bind at 1. hyd. rewrite fill_all_ok.
    unfold bind at 1. hyd. rewrite fill_all_ok.
    unfold bind at 1. hyd. rewrite fill_all_ok. rewrite bind_modify. unfold modify. hyd.
    eexists. split; [reflexivity|]. split; [|done].
    assert (forall {X Y} (l : list X) (y : Y), alen (replicate (length l) y) = alen l) as HA.
    { intros. rewrite alen_replicate. done. }
    destruct I. split; hyd; rewrite ?HA; try done; try lia.
    - intros id Hid. by apply aget_replicate.
    - intros id Hid. apply aget_replicate. unfold alen in *. lia.
    - intros id Hid. apply aget_replicate. unfold alen in *. lia.
    - intros id. unfold lst. rewrite lookup_empty. constructor.
    - intros e ?%elem_of_nil. done.
    - intros e He. apply aget_replicate. unfold alen in *. lia.
    - intros id e ?%elem_of_nil. done.
    - intros e ?%elem_of_nil. done.
    - intros i j e ?%elem_of_nil. done.
    - intros i e ?%elem_of_nil. done.
    - intros. constructor.
    - constructor.
    - intros e He _. apply aget_replicate. unfold alen in *. lia.
  Qed.

  Lemma drain_ok (link : hydra A -> list Z) s l xs : nchain (link s) l (-1) ->
    Forall2 (fun e x => aget (hv s) e = Some x) l xs -> forall fuel, (length l <= fuel)%nat ->
    it_drain fuel link (hdz (-1) l) s = (Ok (xs, -1), s).
  Proof.
    intros Hc HV. induction HV as [|e x l xs Hx HV IH]; intros fuel Hf.
    - by destruct fuel.
    - cbn [length] in Hf. destruct fuel as [|fuel]; [lia|]. cbn [hdz it_drain].
      destruct Hc as [Hn Hc]. pose proof (aget_Some _ _ _ Hn).
      unfold it_hasNext. rewrite Z.geb_leb. destruct (Z.leb_spec 0 e); [|lia].
      unfold it_next. destruct (Z.ltb_spec e 0); [lia|]. mon.
      erewrite bind_rd by exact Hx. mon. erewrite bind_rd by exact Hn. mon. cbn [snd].
      erewrite bind_ok by (apply IH; [done|lia]). done.
  Qed.

  Lemma it_all_ok s m E F lost id (start link : hydra A -> list Z) f xs :
    HInv s m E F [] lost -> alen (start s) = alen (heads s) ->
    (forall id, 0 <= id < alen (heads s) -> aget (start s) id = Some (hdz (-1) (f (E id)))) ->
    f [] = [] -> length (f (E id)) = length (E id) ->
    nchain (link s) (f (E id)) (-1) ->
    Forall2 (fun e x => aget (hv s) e = Some x) (f (E id)) xs ->
    it_all start link id s =
      (if decide (0 <= id) then Ok (xs, Exn InvalidEntry) else Exn IndexOutOfBounds, s).
  Proof.
    intros I HL Hst Hf Hlen Hc HV. unfold it_all, it_reset. mon. rewrite HL, Z.geb_leb.
    pose proof (hi_max _ _ _ _ _ _ I) as Hmx. pose proof (hi_sum _ _ _ _ _ _ I) as Hsum.
    pose proof (hi_lost _ _ _ _ _ _ I). pose proof (alen_nonneg F). pose proof (total_ge m id) as Htg.
    pose proof (hi_size _ _ _ _ _ _ I) as Hsz. pose proof (inv_len _ _ _ _ _ _ id I) as Hle.
    pose proof (hi_nv _ _ _ _ _ _ I) as Hnv. change (alen (@nil Z)) with 0 in Hsum.
    assert (length (f (E id)) <= S (length (hv s)))%nat as Hfuel.
    { rewrite Hlen. unfold alen in *. lia. }
    destruct (Z.leb_spec (alen (heads s)) id) as [Hge|Hlt].
    - pose proof (alen_nonneg (heads s)). rewrite decide_True by lia. mon.
      rewrite (hi_ids _ _ _ _ _ _ I id) in * by lia. rewrite Hf in *. inversion HV; subst.
      cbn [it_drain]. unfold it_hasNext. change (-1 >=? 0) with false. cbv iota. mon. done.
    - case_decide.
      + erewrite bind_rd by (apply Hst; lia). mon.
        erewrite bind_ok by (apply drain_ok; [exact Hc|exact HV|done]). done.
      + unfold bind at 1. rewrite rd_bad by lia. done.
  Qed.

  (** ** Histories *)
  Definition hclear_free (h : list (hop A * res (hout A))) : Prop := Forall (fun c => c.1 <> HClear) h.
  Definition HRel (s : hydra A) (m : lists A) (pk a : Z) (nc : Prop) : Prop :=
    exists E F lost, HInv s m E F [] lost /\ maxEntry s + 1 <= pk + lost /\ maxEntry s + 1 <= a /\
      total m <= pk /\ (nc -> lost = 0).

  Definition add1 (o : hop A) : Z := match o with HAddFirst _ _ | HAddLast _ _ => 1 | _ => 0 end.

  Lemma add_rel s m m' E F lost id L r s' pk a (nc : Prop) :
    HInv s m E F [] lost -> maxEntry s + 1 <= pk + lost -> maxEntry s + 1 <= a -> total m <= pk -> (nc -> lost = 0) ->
    total m' = total m + 1 -> add_post s m m' E F lost id L r s' ->
    (r <> Loop -> HRel s' (match r with Ok _ => m' | _ => m end) (Z.max pk (total (match r with Ok _ => m' | _ => m end))) (a + 1) nc) /\
    ((0 <= id /\ exists e, r = Ok e /\ (nc -> 0 <= e < Z.max pk (total m'))) \/
     (id < 0 /\ r = Exn IndexOutOfBounds) \/
     (2 ^ 30 <= id /\ (r = Loop \/ r = Exn IndexOutOfBounds)) \/ (r = Loop /\ 2 ^ 30 <= a)).
  Proof.
    intros I Hpk Ha Ht Hnc Hm' HP. destruct r as [e|x|]; cbn [add_post] in HP.
    - destruct HP as (Hid & F' & I' & He & Hmx).
      assert (maxEntry s' + 1 <= Z.max pk (total m') + lost) as Hp'.
      { pose proof (hi_sum _ _ _ _ _ _ I') as Hsum. rewrite (hi_size _ _ _ _ _ _ I') in Hsum.
        destruct Hmx as [->|[Hm ->]]; [lia|]. change (alen (@nil Z)) with 0 in Hsum. lia. }
      split.
      + intros _. exists (eupd E id (L e)), F', lost. split; [done|]. split; [done|]. split; [lia|]. split; [lia|done].
      + left. split; [done|]. exists e. split; [done|]. intros Hn. specialize (Hnc Hn). lia.
    - destruct HP as (-> & Hid & I' & Hmx). split.
      + intros _. exists E, F, lost. split; [done|]. split; [lia|]. split; [lia|]. split; [lia|done].
      + right. destruct Hid; [by left|right; left]. tauto.
    - split; [done|]. right. right. destruct HP as [?|?]; [left|right]; [tauto|]. split; [done|lia].
  Qed.

  (** What one call does to the relation, and how it answers. *)
  Lemma hstep_ok s m pk a nc o : HRel s m pk a nc -> (h_is_add o -> is_i32 (h_id o)) ->
    exists r s', hstep o s = (r, s') /\
      (r <> Loop -> HRel s' (hspec m (o, r)) (Z.max pk (total (hspec m (o, r)))) (a + add1 o) (nc /\ o <> HClear)) /\
      (hanswer m o r \/
       (h_is_add o /\ 2 ^ 30 <= h_id o /\ (r = Loop \/ r = Exn IndexOutOfBounds)) \/
       (h_is_add o /\ r = Loop /\ 2 ^ 30 <= a)) /\
      (nc -> forall e, r = Ok (HEntry e) -> 0 <= e < Z.max pk (total (hspec m (o, r)))) /\
      (r = Exn NoSuchElement -> s' = s).
  Proof.
    intros (E & F & lost & I & Hpk & Ha & Ht & Hnc) Hid.
    assert (forall s' m', HInv s' m' E F [] lost -> True) as _ by done.
    destruct o as [id x|id x|id|id| |id| | |id|id]; cbn [Hydra_Model.hstep add1 h_is_add h_id] in *; unfold hres.
    - destruct (h_addFirst_ok s m E F lost id x I (Hid Logic.I)) as (r & s' & Er & HP).
      assert (total (<[id := x :: lst m id]> m) = total m + 1) as HT by (rewrite total_insert; cbn [length]; lia).
      destruct (add_rel _ _ _ _ _ _ _ _ _ _ _ _ _ I Hpk Ha Ht Hnc HT HP) as [HR HA].
      unfold bind at 1. rewrite Er. destruct r as [e|y|].
      + eexists _, _. split; [reflexivity|]. specialize (HR ltac:(done)). split; [|split; [|split; [|done]]].
        * intros _. cbn [hspec]. destruct HR as (E1 & F1 & l1 & ? & ? & ? & ? & ?). exists E1, F1, l1. tauto.
        * left. cbn. destruct HA as [[? _]|HA]; [rewrite decide_True by done; eauto|].
          exfalso. destruct HA as [[_ ?]|[(_ & [?|?])|[? _]]]; discriminate.
        * intros Hn e' [= <-]. cbn [hspec]. destruct HA as [(_ & e1 & [= <-] & He)|HA]; [by apply He|].
          exfalso. destruct HA as [[_ ?]|[(_ & [?|?])|[? _]]]; discriminate.
      + eexists _, _. split; [reflexivity|]. specialize (HR ltac:(done)). split; [|split; [|split; [done|]]].
        * intros _. cbn [hspec]. destruct HR as (E1 & F1 & l1 & ? & ? & ? & ? & ?). exists E1, F1, l1. tauto.
        * cbn. destruct HA as [(_ & ? & ? & _)|[(Hn & [= ->])|[(Hi & [?|[= ->]])|[? _]]]]; try discriminate.
          -- left. rewrite decide_False by lia. done.
          -- right. left. tauto.
        * intros [= ->]. destruct HA as [(_ & ? & ? & _)|[(Hn & ?)|[(Hi & [?|?])|[? _]]]]; discriminate.
      + eexists _, _. split; [reflexivity|]. split; [done|]. split; [|split; done].
        destruct HA as [(_ & ? & ? & _)|[(Hn & ?)|[(Hi & [?|?])|[? ?]]]]; try discriminate; right; [left|right]; tauto.
    - destruct (h_addLast_ok s m E F lost id x I (Hid Logic.I)) as (r & s' & Er & HP).
      assert (total (<[id := lst m id ++ [x]]> m) = total m + 1) as HT by (rewrite total_insert, app_length; cbn [length]; lia).
      destruct (add_rel _ _ _ _ _ _ _ _ _ _ _ _ _ I Hpk Ha Ht Hnc HT HP) as [HR HA].
      unfold bind at 1. rewrite Er. destruct r as [e|y|].
      + eexists _, _. split; [reflexivity|]. specialize (HR ltac:(done)). split; [|split; [|split; [|done]]].
        * intros _. cbn [hspec]. destruct HR as (E1 & F1 & l1 & ? & ? & ? & ? & ?). exists E1, F1, l1. tauto.
        * left. cbn. destruct HA as [[? _]|HA]; [rewrite decide_True by done; eauto|].
          exfalso. destruct HA as [[_ ?]|[(_ & [?|?])|[? _]]]; discriminate.
        * intros Hn e' [= <-]. cbn [hspec]. destruct HA as [(_ & e1 & [= <-] & He)|HA]; [by apply He|].
          exfalso. destruct HA as [[_ ?]|[(_ & [?|?])|[? _]]]; discriminate.
      + eexists _, _. split; [reflexivity|]. specialize (HR ltac:(done)). split; [|split; [|split; [done|]]].
        * intros _. cbn [hspec]. destruct HR as (E1 & F1 & l1 & ? & ? & ? & ? & ?). exists E1, F1, l1. tauto.
        * cbn. destruct HA as [(_ & ? & ? & _)|[(Hn & [= ->])|[(Hi & [?|[= ->]])|[? _]]]]; try discriminate.
          -- left. rewrite decide_False by lia. done.
          -- right. left. tauto.
        * intros [= ->]. destruct HA as [(_ & ? & ? & _)|[(Hn & ?)|[(Hi & [?|?])|[? _]]]]; discriminate.
      + eexists _, _. split; [reflexivity|]. split; [done|]. split; [|split; done].
        destruct HA as [(_ & ? & ? & _)|[(Hn & ?)|[(Hi & [?|?])|[? ?]]]]; try discriminate; right; [left|right]; tauto.
    - pose proof (h_removeFirst_ok _ _ _ _ _ id I) as HP. cbn [hanswer hspec].
      destruct (lst m id) as [|x l] eqn:EM.
      + rewrite (bind_exn _ _ _ _ _ HP). eexists _, _. split; [reflexivity|]. split; [|split; [by left|done]].
        intros _. exists E, F, lost. split; [done|]. repeat split; try lia; tauto.
      + destruct HP as (s' & e & rr & F' & Er & _ & I' & Em). rewrite (bind_ok _ _ _ _ _ Er).
        eexists _, _. split; [reflexivity|]. split; [|split; [by left|done]].
        intros _. exists (eupd E id rr), F', lost. cbn [List.tl]. rewrite Em. split; [done|]. repeat split; try lia; tauto.
    - pose proof (h_removeLast_ok _ _ _ _ _ id I) as HP. cbn [hanswer hspec].
      destruct (last (lst m id)) as [x|] eqn:EM.
      + destruct HP as (s' & e & rr & F' & Er & _ & I' & Em). rewrite (bind_ok _ _ _ _ _ Er).
        eexists _, _. split; [reflexivity|]. split; [|split; [by left|done]].
        intros _. exists (eupd E id rr), F', lost. rewrite Em. split; [done|]. repeat split; try lia; tauto.
      + rewrite (bind_exn _ _ _ _ _ HP). eexists _, _. split; [reflexivity|]. split; [|split; [by left|done]].
        intros _. exists E, F, lost. split; [done|]. repeat split; try lia; tauto.
    - mon. unfold ret. eexists _, _. split; [reflexivity|]. split; [|split; [|done]].
      + intros _. exists E, F, lost. cbn [hspec]. split; [done|]. repeat split; try lia; tauto.
      + left. cbn. by rewrite (hi_size _ _ _ _ _ _ I).
    - unfold h_sizeOf. mon. rewrite (hi_qc _ _ _ _ _ _ I), Z.geb_leb.
      eexists _, s. split; [|split; [|split; [left; reflexivity|done]]].
      + rewrite <- (inv_len _ _ _ _ _ _ id I).
        destruct (Z.leb_spec (alen (heads s)) id), (Z.ltb_spec id 0); cbn [orb]; mon;
          try (rewrite (hi_ids _ _ _ _ _ _ I) by lia; reflexivity).
        erewrite bind_rd by (apply I; lia). reflexivity.
      + intros _. exists E, F, lost. cbn [hspec]. split; [done|]. repeat split; try lia; tauto.
    - mon. unfold ret. eexists _, _. split; [reflexivity|]. split; [|split; [|done]].
      + intros _. exists E, F, lost. cbn [hspec]. split; [done|]. repeat split; try lia; tauto.
      + left. cbn -[Z.eqb]. by rewrite (hi_size _ _ _ _ _ _ I).
    - destruct (h_clear_ok _ _ _ _ _ I) as (s' & Er & I' & Em). rewrite (bind_ok _ _ _ _ _ Er).
      eexists _, _. split; [reflexivity|]. split; [|split; [by left|done]].
      intros _. exists (fun _ => []), [], (maxEntry s + 1). cbn [hspec]. rewrite total_empty, Em.
      split; [done|]. pose proof (total_nonneg m). repeat split; try lia. tauto.
    - rewrite (bind_ret_match _ _ _ _ _ (it_all_ok _ _ _ _ _ id heads nexts (fun l => l) (lst m id) I
        eq_refl (hi_heads _ _ _ _ _ _ I) eq_refl eq_refl (hi_next _ _ _ _ _ _ I id) (hi_val _ _ _ _ _ _ I id))).
      destruct (decide (0 <= id)) eqn:Hd; eexists _, _; (split; [reflexivity|]); (split; [|split; [left; cbn [hanswer]; by rewrite Hd|done]]);
        intros _; exists E, F, lost; cbn [hspec]; (split; [done|]); repeat split; try lia; tauto.
    - rewrite (bind_ret_match _ _ _ _ _ (it_all_ok _ _ _ _ _ id tails prevs (@rev Z) (rev (lst m id)) I
        (hi_qt _ _ _ _ _ _ I) (hi_tails _ _ _ _ _ _ I) eq_refl (rev_length _) (hi_prev _ _ _ _ _ _ I id)
        ltac:(rewrite !rev_alt; apply Forall2_reverse, I))).
      destruct (decide (0 <= id)) eqn:Hd; eexists _, _; (split; [reflexivity|]); (split; [|split; [left; cbn [hanswer]; by rewrite Hd|done]]);
        intros _; exists E, F, lost; cbn [hspec]; (split; [done|]); repeat split; try lia; tauto.
  Qed.

  Definition ids_ok (h : list (hop A * res (hout A))) : Prop :=
    Forall (fun c => h_is_add c.1 -> is_i32 (h_id c.1)) h.

  Lemma peak_app (m : lists A) h c : peak m (h ++ [c]) = Z.max (peak m h) (total (hspec (fold_left hspec h m) c)).
  Proof.
    revert m. induction h as [|d h IH]; intros m; cbn [peak app fold_left]; [lia|]. rewrite IH. lia.
  Qed.

  Lemma peak_ge (m : lists A) h : total m <= peak m h.
  Proof. destruct h; cbn [peak]; lia. Qed.

  Lemma hist_HRel s m pk a nc h s' : HRel s m pk a nc -> hist hstep s h s' -> ids_ok h ->
    HRel s' (fold_left hspec h m) (Z.max pk (peak m h)) (a + h_adds h) (nc /\ hclear_free h).
  Proof.
    intros HR Hh. revert m pk a nc HR. induction Hh as [|s s1 s' o r h Es NL Hh IH]; intros m pk a nc HR Hids.
    - cbn [fold_left peak]. destruct HR as (E & F & lost & I & H1 & H2 & H3 & H4). exists E, F, lost.
      change (h_adds []) with 0. split; [done|]. repeat split; try lia. tauto.
    - apply Forall_cons in Hids as [Ho Hids].
      destruct (hstep_ok _ _ _ _ _ o HR Ho) as (r' & s1' & E' & HR' & _). rewrite Es in E'. injection E' as <- <-.
      specialize (IH _ _ _ _ (HR' NL) Hids). cbn [fold_left peak].
      destruct IH as (E & F & lost & I & H1 & H2 & H3 & H4).
      exists E, F, lost. split; [done|].
      assert (h_adds ((o, r) :: h) = add1 o + h_adds h) as ->.
      { unfold h_adds. rewrite filter_cons. destruct o; cbn [fst]; first [rewrite decide_True by done | rewrite decide_False by done]; cbn [length add1]; lia. }
      assert (total m <= pk) by (destruct HR as (? & ? & ? & ? & ? & ? & ? & ?); done).
      pose proof (peak_ge (hspec m (o, r)) h).
      split; [lia|]. split; [lia|]. split; [lia|].
      intros [Hn Hcf]. apply Forall_cons in Hcf as [? ?]. apply H4. tauto.
  Qed.

  Lemma new_HRel q cap s : new_Hydra dflt q cap = Ok s -> is_i32 q -> is_i32 cap -> HRel s ∅ 0 0 True.
  Proof.
    unfold new_Hydra, is_i32. intros En Hq Hc. destruct (Z.ltb_spec cap 1); [discriminate|].
    destruct (decide (0 <= q)) as [Hq0|].
    2:{ unfold array_create_with, anew in En. destruct (Z.ltb_spec q 0); [discriminate|lia]. }
    destruct (decide (cap <= 1073741824)) as [Hcm|].
    2:{ rewrite nextPowerOf2_big in En by (unfold MAX_INT; lia).
        rewrite !array_create_with_ok in En by (try lia; intros; lia). cbn [rbind] in En.
        unfold array_create in En. rewrite anew_ok in En by lia. discriminate. }
    pose proof (nextPowerOf2_le_max cap ltac:(lia)) as Hn.
    destruct (nextPowerOf2_least cap ltac:(lia)) as (Hp & _ & _).
    rewrite !array_create_with_ok in En by (try lia; intros; lia). cbn [rbind] in En.
    unfold array_create in En. rewrite !anew_ok in En by lia. cbn [rbind] in En. injection En as <-.
    exists (fun _ => []), [], 0. split.
    - split; hyd; rewrite ?alen_replicate; try done; try lia.
      + unfold MAX_INT. lia.
      + rewrite Z2Nat.id by lia. split; [done|]. change (2 ^ 30) with 1073741824. lia.
      + intros id Hid. apply aget_replicate. lia.
      + intros id Hid. apply aget_replicate. lia.
      + intros id Hid. apply aget_replicate. lia.
      + intros id. unfold lst. rewrite lookup_empty. constructor.
      + intros e ?%elem_of_nil. done.
      + intros e He. apply aget_replicate. lia.
      + intros id e ?%elem_of_nil. done.
      + intros e ?%elem_of_nil. done.
      + intros i j e ?%elem_of_nil. done.
      + intros i e ?%elem_of_nil. done.
      + intros. constructor.
      + constructor.
      + intros e He _. apply aget_replicate. lia.
    - hyd. rewrite (@total_empty A). lia.
  Qed.

  Lemma hydra_correct q cap s0 h s o :
    is_i32 q -> is_i32 cap -> new_Hydra dflt q cap = Ok s0 -> hist hstep s0 h s -> ids_ok h ->
    (h_is_add o -> is_i32 (h_id o)) ->
    exists r s', hstep o s = (r, s') /\
      (hanswer (hcontents h) o r \/
       (h_is_add o /\ 2 ^ 30 <= h_id o /\ (r = Loop \/ r = Exn IndexOutOfBounds)) \/
       (h_is_add o /\ r = Loop /\ 2 ^ 30 <= h_adds h)) /\
      (r = Exn NoSuchElement -> s' = s) /\
      (hclear_free h -> forall e, r = Ok (HEntry e) -> 0 <= e < peak ∅ (h ++ [(o, r)])).
  Proof.
    intros Hq Hc En Hh Hids Ho.
    pose proof (hist_HRel _ _ _ _ _ _ _ (new_HRel _ _ _ En Hq Hc) Hh Hids) as HR.
    rewrite Z.add_0_l in HR.
    destruct (hstep_ok _ _ _ _ _ o HR Ho) as (r & s' & E & _ & HA & HE & Hn).
    exists r, s'. split; [done|]. split; [exact HA|]. split; [done|].
    intros Hcf e ->. specialize (HE ltac:(tauto) e eq_refl). rewrite peak_app.
    assert (0 <= peak ∅ h).
    { clear. generalize (∅ : lists A). induction h as [|c h IH]; intros m; cbn [peak]; [apply total_nonneg|].
      specialize (IH (hspec m c)). lia. }
    lia.
  Qed.
End Hydra.
