(** C111: a search with a heap whose entries are kept in a map finds the cheapest paths. *)
From Verif Require Hash_Model Sched_Hash Hash_Spec Table_Props.
From Verif Require Import JBase JLemmas Num_Model Bi_Model App_Model Sched_Model Dij_Model Dij_Spec Dij_Proofs.

Section Props.
  Context {K : Type} `{Countable K}.
  Variable dfltK : K.
  Variables (hashf : Z -> K -> Z) (eqf : Z -> K -> K -> bool) (eqV : K -> K -> bool).
  Variable edges : K -> list (K * Z).
  Notation new := (new_dij dfltK eqV).
  Notation search := (j_search dfltK hashf eqf edges).
  Notation distance := (j_distance hashf eqf).

  (** The equality of the two maps is equality of keys. *)
  Definition leib : Prop := forall q a b, eqf q a b = true <-> a = b.
  (** The sizes the three constructors are given. *)
  Definition sizes (cap : Z) (l : Hash_Model.lf) (hc : Z) : Prop :=
    1 <= cap <= MAX_CAPACITY /\ Hash_Model.lf_bad l = false /\ Hash_Spec.lf_dense cap l = true /\ 1 <= hc <= MAX_INT.
  (** A graph the search is meant for: finitely many keys, costs from 0 to [W] that cannot add up to
      more than a long. *)
  Definition suitable (start : K) (U : list K) (W : Z) : Prop :=
    (forall k, on_a_walk edges start k -> k ∈ U) /\ Z.of_nat (length U) < 2 ^ 29 /\
    (forall k k' w, on_a_walk edges start k -> (k', w) ∈ edges k -> 0 <= w <= W) /\
    0 <= W /\ Z.of_nat (length U) * W < 2 ^ 63.

  (** The search ends after at most one round for each key and one more, without an exception; the
      map then gives for every key the cost of a cheapest path and -1 for exactly the keys to which no
      path leads. *)
  Theorem C111_cheapest : forall cap l hc s0 start U W fuel, leib -> sizes cap l hc -> new cap l hc = Ok s0 ->
    suitable start U W -> (length U < fuel)%nat ->
    exists s, search fuel start s0 = (Ok tt, s) /\
      (forall k x, 0 <= x -> (distance k s = (Ok x, s) <-> cheapest edges start x k)) /\
      (forall k, distance k s = (Ok (-1), s) <-> ~ on_a_walk edges start k) /\
      forall k, exists x, distance k s = (Ok x, s) /\ -1 <= x.
  Proof.
    intros cap l hc s0 start U W fuel Leib (_ & _ & Hl & Hc) E0 (HU & Hlen & HW & H0 & Hmul) Hf.
    destruct (search_spec dfltK hashf eqf eqV Leib edges start U W HU Hlen HW Hmul H0 fuel cap l hc s0 E0 Hl Hc Hf) as ([t u] & D & E & [R1 R2] & I).
    exists (mkDij t u). split; [done|]. cbn [j_dist] in R1.
    assert (forall k, distance k (mkDij t u) = (Ok (default (-1) (D !! k)), mkDij t u)) as Hd.
    { intros k. unfold j_distance. exact (jdist_run _ t u _ t (Sched_Hash.fm_get dfltK 0 hashf eqf Leib D t k (-1) R1)). }
    assert (forall k x, D !! k = Some x -> 0 <= x) as Hpos by (intros k x Ex; apply (ji_D _ _ _ _ _ I k x Ex)).
    pose proof (fun k => proj1 (jinv_cheapest edges start U W D k I)) as Hs.
    pose proof (fun k => proj2 (jinv_cheapest edges start U W D k I)) as Hr.
    split; [|split].
    - intros k x Hx. rewrite <- Hs, Hd. destruct (D !! k) as [y|]; unfold default, id.
      + split; intros X; by injection X as ->.
      + split; [intros X; injection X; lia|done].
    - intros k. rewrite <- Hr, Hd. destruct (D !! k) as [y|] eqn:Ey; unfold default, id; [|done].
      split; [intros X; injection X; pose proof (Hpos k y Ey); lia|done].
    - intros k. rewrite Hd. eexists. split; [reflexivity|]. destruct (D !! k) as [y|] eqn:Ey; unfold default, id; [|lia].
      pose proof (Hpos k y Ey). lia.
  Qed.
End Props.

(** ** A concrete graph: 17 keys, three edges each, some of them loops. *)
Definition xedges (k : Z) : list (Z * Z) := [((3 * k + 1) mod 17, 7); ((k + 5) mod 17, 2); (k * k mod 17, 11); (k, 0)].
Notation xsearch := (j_search 0 long_hash long_eq xedges).
Definition xall : list Z := seqZ 0 17.
Lemma xwalk k : on_a_walk xedges 3 k -> k ∈ xall.
Proof.
  intros [x Hw]. induction Hw as [|x k k' w Hw IH He]; [by apply elem_of_seqZ|].
  apply elem_of_seqZ. apply elem_of_seqZ in IH. pose proof (Z.mod_pos_bound (3 * k + 1) 17). pose proof (Z.mod_pos_bound (k + 5) 17). pose proof (Z.mod_pos_bound (k * k) 17).
  unfold xedges in He. repeat (apply elem_of_cons in He as [[= -> ->]|He]; [lia|]). by apply elem_of_nil in He.
Qed.
Example C111_case : sizes 2 (Hash_Model.LF 3 2) 1 /\ leib long_eq /\ suitable xedges 3 xall 11 /\
  exists s0 s, new_dij 0 Z.eqb 2 (Hash_Model.LF 3 2) 1 = Ok s0 /\ xsearch 18%nat 3 s0 = (Ok tt, s) /\
  map (fun k => (j_distance long_hash long_eq k s).1) [3; 8; 10; 9; 13; 1; 0; 14; 40] =
    [Ok 0; Ok 2; Ok 7; Ok 11; Ok 4; Ok 6; Ok 17; Ok 13; Ok (-1)].
Proof.
  split; [unfold sizes, MAX_CAPACITY, MAX_INT; vm_compute; repeat split; discriminate|]. split; [exact (proj1 Table_Props.leib_keys)|].
  split.
  { split; [exact xwalk|]. split; [vm_compute; reflexivity|]. split; [|split; [lia|vm_compute; reflexivity]].
    intros k k' w _ He. unfold xedges in He. repeat (apply elem_of_cons in He as [[= -> ->]|He]; [lia|]). by apply elem_of_nil in He. }
  destruct (new_dij 0 Z.eqb 2 (Hash_Model.LF 3 2) 1) as [s0| |] eqn:E; [|vm_compute in E; discriminate E..].
  exists s0. vm_compute in E. injection E as <-. eexists. split; [reflexivity|]. split; [vm_compute; reflexivity|]. vm_compute; reflexivity.
Qed.

Print Assumptions C111_cheapest.
