(** Lemmas about the Java primitives of [JBase]. *)
From Verif Require Import JBase.

(** * Wrap-around *)

Lemma wrap_id n z : 0 < n -> - 2 ^ (n - 1) <= z < 2 ^ (n - 1) -> wrap n z = z.
Proof.
  intros Hn Hz. unfold wrap.
  assert (2 ^ n = 2 * 2 ^ (n - 1)) as E.
  { rewrite <- Z.pow_succ_r by lia. f_equal. lia. }
  rewrite Z.mod_small by lia. lia.
Qed.

Lemma wrap_range n z : 0 < n -> - 2 ^ (n - 1) <= wrap n z < 2 ^ (n - 1).
Proof.
  intros Hn. unfold wrap.
  assert (2 ^ n = 2 * 2 ^ (n - 1)) as E.
  { rewrite <- Z.pow_succ_r by lia. f_equal. lia. }
  assert (0 < 2 ^ (n - 1)) by (apply Z.pow_pos_nonneg; lia).
  pose proof (Z.mod_pos_bound (z + 2 ^ (n - 1)) (2 ^ n) ltac:(lia)). lia.
Qed.

Lemma wrap_congr n z : 0 < n -> exists k, wrap n z = z + k * 2 ^ n.
Proof.
  intros Hn. unfold wrap. exists (- ((z + 2 ^ (n - 1)) / 2 ^ n)).
  assert (0 < 2 ^ n) by (apply Z.pow_pos_nonneg; lia).
  pose proof (Z.div_mod (z + 2 ^ (n - 1)) (2 ^ n) ltac:(lia)). nia.
Qed.

Lemma wrap_mod n z : 0 < n -> (wrap n z) mod 2 ^ n = z mod 2 ^ n.
Proof.
  intros Hn. destruct (wrap_congr n z Hn) as [k ->].
  assert (0 < 2 ^ n) by (apply Z.pow_pos_nonneg; lia).
  rewrite Z.mod_add by lia. reflexivity.
Qed.

Lemma wrap_eq_of_mod n a b : 0 < n -> a mod 2 ^ n = b mod 2 ^ n -> wrap n a = wrap n b.
Proof.
  intros Hn E. unfold wrap. f_equal.
  assert (0 < 2 ^ n) by (apply Z.pow_pos_nonneg; lia).
  rewrite (Z.add_mod a), (Z.add_mod b), E by lia. reflexivity.
Qed.

Lemma i32_id z : is_i32 z -> i32 z = z.
Proof. unfold is_i32, i32. intros. apply wrap_id; [lia|]. change (2 ^ (32 - 1)) with 2147483648. lia. Qed.
Lemma i64_id z : is_i64 z -> i64 z = z.
Proof. unfold is_i64, i64. intros. apply wrap_id; [lia|]. change (2 ^ (64 - 1)) with 9223372036854775808. lia. Qed.
Lemma i8_id z : is_i8 z -> i8 z = z.
Proof. unfold is_i8, i8. intros. apply wrap_id; [lia|]. change (2 ^ (8 - 1)) with 128. lia. Qed.
Lemma i16_id z : is_i16 z -> i16 z = z.
Proof. unfold is_i16, i16. intros. apply wrap_id; [lia|]. change (2 ^ (16 - 1)) with 32768. lia. Qed.
Lemma i32_range z : is_i32 (i32 z).
Proof. pose proof (wrap_range 32 z ltac:(lia)) as H. exact H. Qed.
Lemma i64_range z : is_i64 (i64 z).
Proof. pose proof (wrap_range 64 z ltac:(lia)) as H. exact H. Qed.
Lemma i8_range z : is_i8 (i8 z).
Proof. pose proof (wrap_range 8 z ltac:(lia)) as H. exact H. Qed.
Lemma i16_range z : is_i16 (i16 z).
Proof. pose proof (wrap_range 16 z ltac:(lia)) as H. exact H. Qed.

Lemma i32_cong z : exists k, i32 z = z + k * 4294967296.
Proof. exact (wrap_congr 32 z ltac:(lia)). Qed.
Lemma i64_cong z : exists k, i64 z = z + k * 18446744073709551616.
Proof. exact (wrap_congr 64 z ltac:(lia)). Qed.

(** * Monad *)

Lemma bind_ok {S A B} (m : M S A) (f : A -> M S B) s a s' :
  m s = (Ok a, s') -> bind m f s = f a s'.
Proof. unfold bind. intros ->. reflexivity. Qed.
Lemma bind_exn {S A B} (m : M S A) (f : A -> M S B) s e s' :
  m s = (Exn e, s') -> bind m f s = (Exn e, s').
Proof. unfold bind. intros ->. reflexivity. Qed.
Lemma bind_inv_ok {S A B} (m : M S A) (f : A -> M S B) s b s' :
  bind m f s = (Ok b, s') -> exists a s1, m s = (Ok a, s1) /\ f a s1 = (Ok b, s').
Proof.
  unfold bind. destruct (m s) as [[a|e|] s1] eqn:E; intros H; try discriminate.
  eauto.
Qed.
Lemma bind_gets {S A B} (g : S -> A) (f : A -> M S B) s :
  bind (gets g) f s = f (g s) s.
Proof. reflexivity. Qed.
Lemma bind_modify {S B} (g : S -> S) (f : unit -> M S B) s :
  bind (modify g) f s = f tt (g s).
Proof. reflexivity. Qed.
Lemma bind_ret {S A B} (a : A) (f : A -> M S B) s : bind (ret a) f s = f a s.
Proof. reflexivity. Qed.
Lemma bind_bind {S A B C} (m : M S A) (f : A -> M S B) (g : B -> M S C) s :
  bind (bind m f) g s = bind m (fun x => bind (f x) g) s.
Proof. unfold bind. destruct (m s) as [[a|e|] s1]; reflexivity. Qed.
Lemma bind_of_res {S A B} (r : res A) a (f : A -> M S B) s :
  r = Ok a -> bind (of_res r) f s = f a s.
Proof. intros ->. reflexivity. Qed.
Lemma bind_of_exn {S A B} (r : res A) e (f : A -> M S B) s :
  r = Exn e -> bind (of_res r) f s = (Exn e, s).
Proof. intros ->. reflexivity. Qed.
Lemma bind_of_loop {S A B} (r : res A) (f : A -> M S B) s :
  r = Loop -> bind (of_res r) f s = (Loop, s).
Proof. intros ->. reflexivity. Qed.
Lemma bind_rd {S A B} (g : S -> list A) i (f : A -> M S B) s x :
  aget (g s) i = Some x -> bind (rd g i) f s = f x s.
Proof. intros H. unfold bind, rd. rewrite H. reflexivity. Qed.
Lemma bind_rdl {S A B} (l : list A) i (f : A -> M S B) s x :
  aget l i = Some x -> bind (rdl l i) f s = f x s.
Proof. intros H. unfold bind, rdl. rewrite H. reflexivity. Qed.

(** Push a computation through the administrative binds. *)
Ltac mon := repeat first [rewrite bind_bind | rewrite bind_gets | rewrite bind_modify | rewrite bind_ret].

(** * Arrays *)

Lemma alen_nonneg {A} (l : list A) : 0 <= alen l.
Proof. unfold alen. lia. Qed.
Lemma alen_nil {A} : alen (@nil A) = 0.
Proof. reflexivity. Qed.
Lemma alen_cons {A} (x : A) l : alen (x :: l) = alen l + 1.
Proof. unfold alen. cbn [length]. lia. Qed.
Lemma alen_app {A} (l1 l2 : list A) : alen (l1 ++ l2) = alen l1 + alen l2.
Proof. unfold alen. rewrite app_length. lia. Qed.
Lemma alen_replicate {A} n (x : A) : alen (replicate n x) = Z.of_nat n.
Proof. unfold alen. rewrite replicate_length. reflexivity. Qed.
Lemma alen_upd {A} (l : list A) i x : alen (upd l i x) = alen l.
Proof. unfold alen, upd. rewrite insert_length. reflexivity. Qed.

Lemma aget_Some {A} (l : list A) i x : aget l i = Some x -> 0 <= i < alen l.
Proof.
  unfold aget, alen. destruct (Z.ltb_spec i 0); [discriminate|].
  intros Hl. apply lookup_lt_Some in Hl. lia.
Qed.
Lemma aget_None {A} (l : list A) i : aget l i = None <-> ~ (0 <= i < alen l).
Proof.
  unfold aget, alen. destruct (Z.ltb_spec i 0).
  - split; [lia|reflexivity].
  - rewrite lookup_ge_None. lia.
Qed.
Lemma aget_is_Some {A} (l : list A) i : 0 <= i < alen l -> exists x, aget l i = Some x.
Proof.
  intros H. destruct (aget l i) eqn:E; [eauto|]. apply aget_None in E. contradiction.
Qed.
Lemma aget_out {A} (l : list A) i : ~ (0 <= i < alen l) -> aget l i = None.
Proof. apply aget_None. Qed.
Lemma aget_nat {A} (l : list A) (i : nat) : aget l (Z.of_nat i) = l !! i.
Proof. unfold aget. destruct (Z.ltb_spec (Z.of_nat i) 0); [lia|]. rewrite Nat2Z.id. reflexivity. Qed.
Lemma aget_lookup {A} (l : list A) (i : Z) : 0 <= i -> aget l i = l !! Z.to_nat i.
Proof. unfold aget. intros. destruct (Z.ltb_spec i 0); [lia|]. reflexivity. Qed.

Lemma aget_upd {A} (l : list A) i j x :
  0 <= i < alen l -> aget (upd l i x) j = if decide (i = j) then Some x else aget l j.
Proof.
  intros Hi. unfold aget, upd, alen in *.
  destruct (Z.ltb_spec j 0); case_decide; try lia; try reflexivity.
  - subst. rewrite list_lookup_insert by lia. reflexivity.
  - rewrite list_lookup_insert_ne by lia. reflexivity.
Qed.
Lemma aget_upd_eq {A} (l : list A) i x : 0 <= i < alen l -> aget (upd l i x) i = Some x.
Proof. intros. rewrite aget_upd by assumption. rewrite decide_True by reflexivity. reflexivity. Qed.
Lemma aget_upd_ne {A} (l : list A) i j x : 0 <= i -> i <> j -> aget (upd l i x) j = aget l j.
Proof.
  intros Hi Hne. unfold aget, upd. destruct (Z.ltb_spec j 0); [reflexivity|].
  rewrite list_lookup_insert_ne by lia. reflexivity.
Qed.

Lemma aset_ok {A} (l : list A) i x : 0 <= i < alen l -> aset l i x = Some (upd l i x).
Proof.
  intros. unfold aset, upd.
  destruct (Z.leb_spec 0 i), (Z.ltb_spec i (alen l)); try lia; reflexivity.
Qed.
Lemma aset_None {A} (l : list A) i x : ~ (0 <= i < alen l) -> aset l i x = None.
Proof.
  intros. unfold aset.
  destruct (Z.leb_spec 0 i), (Z.ltb_spec i (alen l)); try lia; reflexivity.
Qed.
Lemma aset_Some {A} (l : list A) i x l' :
  aset l i x = Some l' -> 0 <= i < alen l /\ l' = upd l i x.
Proof.
  unfold aset, upd. destruct (Z.leb_spec 0 i), (Z.ltb_spec i (alen l)); try discriminate.
  intros [= <-]. split; [lia|reflexivity].
Qed.

Lemma rd_ok {S A} (f : S -> list A) i s x : aget (f s) i = Some x -> rd f i s = (Ok x, s).
Proof. unfold rd. intros ->. reflexivity. Qed.
Lemma rd_bad {S A} (f : S -> list A) i s :
  ~ (0 <= i < alen (f s)) -> rd f i s = (Exn IndexOutOfBounds, s).
Proof. unfold rd. intros H. rewrite aget_out by exact H. reflexivity. Qed.
Lemma wr_ok {S A} (f : S -> list A) p i (x : A) s :
  0 <= i < alen (f s) -> wr f p i x s = (Ok tt, p (upd (f s) i x) s).
Proof. unfold wr. intros. rewrite aset_ok by assumption. reflexivity. Qed.
Lemma bind_wr {S A B} (g : S -> list A) p i (x : A) (f : unit -> M S B) s :
  0 <= i < alen (g s) -> bind (wr g p i x) f s = f tt (p (upd (g s) i x) s).
Proof. intros H. unfold bind, wr. rewrite aset_ok by exact H. reflexivity. Qed.
Lemma wr_bad {S A} (f : S -> list A) p i (x : A) s :
  ~ (0 <= i < alen (f s)) -> wr f p i x s = (Exn IndexOutOfBounds, s).
Proof. unfold wr. intros H. rewrite aset_None by exact H. reflexivity. Qed.
Lemma rdl_ok {S A} (l : list A) i (s : S) x : aget l i = Some x -> rdl l i s = (Ok x, s).
Proof. unfold rdl. intros ->. reflexivity. Qed.

Lemma anew_ok {A} n (d : A) : 0 <= n -> anew n d = Ok (replicate (Z.to_nat n) d).
Proof. unfold anew. intros. destruct (Z.ltb_spec n 0); [lia|reflexivity]. Qed.
Lemma aget_replicate {A} n (x : A) i :
  0 <= i < Z.of_nat n -> aget (replicate n x) i = Some x.
Proof.
  intros. rewrite aget_lookup by lia. apply lookup_replicate_2. lia.
Qed.
Lemma aget_replicate_inv {A} n (x y : A) i :
  aget (replicate n x) i = Some y -> y = x /\ 0 <= i < Z.of_nat n.
Proof.
  intros H. pose proof (aget_Some _ _ _ H) as Hb. rewrite alen_replicate in Hb.
  rewrite aget_replicate in H by exact Hb. split; [congruence|exact Hb].
Qed.

Lemma aget_app_l {A} (l1 l2 : list A) i : i < alen l1 -> aget (l1 ++ l2) i = aget l1 i.
Proof.
  intros. unfold aget, alen in *. destruct (Z.ltb_spec i 0); [reflexivity|].
  apply lookup_app_l. lia.
Qed.
Lemma aget_app_r {A} (l1 l2 : list A) i :
  alen l1 <= i -> aget (l1 ++ l2) i = aget l2 (i - alen l1).
Proof.
  intros. unfold aget, alen in *.
  destruct (Z.ltb_spec i 0); [lia|]. destruct (Z.ltb_spec (i - Z.of_nat (length l1)) 0); [lia|].
  rewrite lookup_app_r by lia. f_equal. lia.
Qed.
Lemma aget_cons {A} (x : A) l i :
  aget (x :: l) i = if decide (i = 0) then Some x else aget l (i - 1).
Proof.
  unfold aget. destruct (Z.ltb_spec i 0), (Z.ltb_spec (i - 1) 0); case_decide; try lia; try reflexivity.
  - subst. reflexivity.
  - replace (Z.to_nat i) with (S (Z.to_nat (i - 1))) by lia. reflexivity.
Qed.
Lemma aget_nil {A} i : aget (@nil A) i = None.
Proof. unfold aget. destruct (i <? 0); reflexivity. Qed.

Lemma list_eq_aget {A} (l1 l2 : list A) : (forall i, aget l1 i = aget l2 i) -> l1 = l2.
Proof.
  intros H. apply list_eq. intros i. specialize (H (Z.of_nat i)).
  rewrite !aget_nat in H. exact H.
Qed.
Lemma list_eq_aget' {A} (l1 l2 : list A) :
  alen l1 = alen l2 -> (forall i, 0 <= i < alen l1 -> aget l1 i = aget l2 i) -> l1 = l2.
Proof.
  intros Hl H. apply list_eq_aget. intros i.
  destruct (decide (0 <= i < alen l1)) as [Hi|Hi]; [auto|].
  rewrite !aget_out by lia. reflexivity.
Qed.

Lemma acopy_ok {A} (l : list A) n d :
  alen l <= n -> acopy l n d = Ok (l ++ replicate (Z.to_nat n - length l) d).
Proof.
  intros. unfold acopy, alen in *. destruct (Z.ltb_spec n 0); [lia|].
  rewrite take_ge by lia. reflexivity.
Qed.
Lemma alen_pad {A} (l : list A) n d :
  alen l <= n -> alen (l ++ replicate (Z.to_nat n - length l) d) = n.
Proof. intros. rewrite alen_app, alen_replicate. unfold alen in *. lia. Qed.
Lemma aget_pad_l {A} (l : list A) n d i :
  i < alen l -> aget (l ++ replicate (Z.to_nat n - length l) d) i = aget l i.
Proof. apply aget_app_l. Qed.
Lemma aget_pad_r {A} (l : list A) n d i :
  alen l <= i < n -> aget (l ++ replicate (Z.to_nat n - length l) d) i = Some d.
Proof.
  intros. rewrite aget_app_r by lia. apply aget_replicate. unfold alen in *. lia.
Qed.

Lemma elem_of_aget {A} (l : list A) x : x ∈ l <-> exists i, aget l i = Some x.
Proof.
  rewrite elem_of_list_lookup. split.
  - intros [i H]. exists (Z.of_nat i). rewrite aget_nat. exact H.
  - intros [i H]. pose proof (aget_Some _ _ _ H). exists (Z.to_nat i).
    rewrite <- aget_lookup by lia. exact H.
Qed.

(** A duplicate-free list of indexes below [n] has at most [n] elements. *)
Lemma NoDup_bounded_length (l : list Z) (n : Z) :
  0 <= n -> NoDup l -> (forall x, x ∈ l -> 0 <= x < n) -> Z.of_nat (length l) <= n.
Proof.
  intros Hn Hnd Hb.
  assert (length l <= length (seqZ 0 n))%nat as H.
  { apply submseteq_length. apply NoDup_submseteq; [exact Hnd|].
    intros x Hx. apply elem_of_seqZ. specialize (Hb x Hx). lia. }
  rewrite seqZ_length in H. lia.
Qed.
