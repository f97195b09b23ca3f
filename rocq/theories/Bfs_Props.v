(** C110: a search with an indexed map and a deque finds the shortest paths. *)
From Verif Require Hash_Model Deque_Model Sched_Hash Hash_Spec Table_Props.
From Verif Require Import JBase JLemmas Num_Model Bi_Model Bfs_Model Bfs_Spec Bfs_Proofs.

Section Props.
  Context {K : Type} `{Countable K}.
  Variable dfltK : K.
  Variables (hashf : Z -> K -> Z) (eqf : Z -> K -> K -> bool).
  Variable succ : K -> list K.
  Notation new := (new_bfs dfltK).
  Notation search := (b_search dfltK hashf eqf succ).
  Notation distance := (b_distance hashf eqf).

  (** The map's equality is equality of keys. *)
  Definition leib : Prop := forall q a b, eqf q a b = true <-> a = b.
  (** The sizes the two constructors are given. *)
  Definition sizes (cap : Z) (l : Hash_Model.lf) (dcap : Z) : Prop :=
    1 <= cap <= MAX_CAPACITY /\ Hash_Model.lf_bad l = false /\ Hash_Spec.lf_dense cap l = true /\ is_i32 dcap.

  (** If no more than [length U] keys, fewer than 2^29 - 1, are within reach of [start], the search
      ends after at most one round for each of them and one more, without an exception; the map then
      gives for every key the length of a shortest path, -1 for exactly the keys out of reach, and
      its size is the number of keys within reach. *)
  Theorem C110_search : forall cap l dcap s0 start U fuel, leib -> sizes cap l dcap -> new cap l dcap = Ok s0 ->
    (forall k, within_reach succ start k -> k ∈ U) -> Z.of_nat (length U) < 2 ^ 29 - 1 -> (length U < fuel)%nat ->
    exists s, search fuel start s0 = (Ok tt, s) /\
      (forall k n, distance k s = (Ok (Z.of_nat n), s) <-> shortest succ start n k) /\
      (forall k, distance k s = (Ok (-1), s) <-> ~ within_reach succ start k) /\
      exists L, NoDup L /\ (forall k, k ∈ L <-> within_reach succ start k) /\ b_count s = (Ok (Z.of_nat (length L)), s).
  Proof.
    intros cap l dcap s0 start U fuel Leib (_ & _ & Hl & Hc) E0 HU Hlen Hf.
    destruct (search_spec dfltK hashf eqf Leib succ start U HU Hlen fuel cap l dcap s0 E0 Hl Hc Hf) as ([t u] & m & d & E & [R1 R2] & I).
    exists (mkBfs t u). split; [done|]. cbn [b_dist] in R1.
    assert (forall k, distance k (mkBfs t u) = (Ok (default (-1) (m !! k)), mkBfs t u)) as Hd.
    { intros k. unfold b_distance. exact (dist_run _ t u _ t (Sched_Hash.fm_get dfltK 0 hashf eqf Leib m t k (-1) R1)). }
    assert (forall k x, m !! k = Some x -> 0 <= x) as Hpos.
    { intros k x Ex. destruct (i_sound _ _ _ _ _ I k x Ex) as (_ & n & -> & _). lia. }
    pose proof (fun k => proj1 (inv_shortest succ start U m d k I)) as Hs.
    pose proof (fun k => proj2 (inv_shortest succ start U m d k I)) as Hr.
    split; [|split].
    - intros k n. rewrite <- Hs, Hd. destruct (m !! k) as [x|]; unfold default, id.
      + split; intros X; by injection X as ->.
      + split; [intros X; injection X; lia|done].
    - intros k. rewrite <- Hr, Hd. destruct (m !! k) as [x|] eqn:Ex; unfold default, id; [|done].
      split; [intros X; injection X; pose proof (Hpos k x Ex); lia|done].
    - exists (map_to_list m).*1. split; [apply NoDup_fst_map_to_list|]. split.
      + intros k. rewrite elem_of_list_fmap. split.
        * intros ([k' x] & -> & Ex%elem_of_map_to_list). destruct (i_sound _ _ _ _ _ I _ _ Ex) as (_ & n & _ & P). by exists n.
        * intros W. destruct (m !! k) as [x|] eqn:Ex; [|by apply Hr in Ex]. exists (k, x). split; [done|]. by apply elem_of_map_to_list.
      + unfold b_count. rewrite (dist_run _ t u (Ok (Hash_Model.hsize t)) t) by done.
        rewrite (Sched_Hash.fm_size dfltK 0 hashf eqf m t R1), fmap_length. done.
  Qed.
End Props.

(** ** A concrete graph: from k to k / 2 and, below 40, to 3 k + 1. *)
Definition xsucc (k : Z) : list Z := (k / 2) :: (if k <? 40 then [3 * k + 1] else []).
Notation xsearch := (b_search 0 long_hash long_eq xsucc).
Definition xall : list Z := [0; 1; 2; 3; 4; 5; 6; 7; 8; 9; 10; 11; 12; 13; 14; 15; 16; 17; 18; 19; 20; 21; 22; 23; 24; 25; 26; 27; 28; 29; 30; 31; 32; 33; 34; 35; 36; 37; 38; 39; 40; 41; 42; 43; 44; 45; 46; 47; 48; 49; 50; 51; 52; 53; 54; 55; 56; 57; 58; 59; 61; 64; 67; 70; 73; 76; 79; 82; 85; 88; 91; 94; 97; 100; 103; 106; 109; 112; 115; 118].
Lemma closed_reach (P : Z -> bool) start : P start = true -> (forall k, P k = true -> forallb P (xsucc k) = true) ->
  forall k, within_reach xsucc start k -> P k = true.
Proof.
  intros H0 HS k [n Hp]. induction Hp as [|n k k' Hp IH Hk]; [done|]. specialize (HS k IH).
  rewrite forallb_forall in HS. apply HS. by apply elem_of_list_In.
Qed.
Example C110_case : sizes 2 (Hash_Model.LF 3 2) 1 /\ leib long_eq /\
  (forall k, within_reach xsucc 7 k -> k ∈ xall) /\ exists s0 s, new_bfs 0 2 (Hash_Model.LF 3 2) 1 = Ok s0 /\
  xsearch (S (length xall)) 7 s0 = (Ok tt, s) /\
  map (fun k => (b_distance long_hash long_eq k s).1) [7; 22; 3; 11; 10; 1; 34; 5; 31; 12; 100; 0; 200] =
    [Ok 0; Ok 1; Ok 1; Ok 2; Ok 2; Ok 2; Ok 3; Ok 3; Ok 3; Ok 7; Ok 4; Ok 3; Ok (-1)] /\
  (b_count s).1 = Ok 80.
Proof.
  split; [unfold sizes, MAX_CAPACITY, is_i32; vm_compute; repeat split; discriminate|]. split; [exact (proj1 Table_Props.leib_keys)|].
  split.
  { intros k Hk. apply (closed_reach (fun k => bool_decide (k ∈ xall))) in Hk; [by apply bool_decide_eq_true in Hk|done|].
    clear. intros k Hk%bool_decide_eq_true. revert k Hk. apply Forall_forall. apply (bool_decide_unpack _). vm_compute. exact Logic.I. }
  destruct (new_bfs 0 2 (Hash_Model.LF 3 2) 1) as [s0| |] eqn:E; [|vm_compute in E; discriminate E..].
  exists s0. vm_compute in E. injection E as <-. eexists. split; [reflexivity|]. split; [vm_compute; reflexivity|]. split; vm_compute; reflexivity.
Qed.

Print Assumptions C110_search.
