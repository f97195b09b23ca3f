(** What growing costs a set or map, for C97. *)
From Verif Require Import JBase JLemmas JHist Num_Model Num_Spec Num_Proofs
  Hash_Model Hash_Spec Hash_Tab Hash_Proofs Hash_Step Hash_Iter Hash_Copy Hash_Calls Hash_Main Hash_More Cap_Spec Hash_Cap.
From Verif Require Amort_Spec.
Notation copied := Amort_Spec.copied.

Section Hash.
  Context {K V : Type} (dfltK : K) (dfltV : V) (ismap : bool) (hashf : Z -> K -> Z) (eqf : Z -> K -> K -> bool) (ok : K -> Prop).
  Notation hstep := (hstep dfltK dfltV ismap hashf eqf).
  Notation reachable := (reachable dfltK dfltV ismap hashf eqf ok).
  Notation steps := (steps dfltK dfltV ismap hashf eqf ok).
  Notation new := (new_Hash dfltK dfltV ismap).

  Lemma hash_copied a s h a' s' : steps a s h a' s' -> forall p n, reachable a s -> lifo a = true ->
    n + p <= capacity s -> n + copied hstep capacity s h + p <= capacity s'.
  Proof.
    induction 1 as [a s|a s o r s1 h a' s' P E H IH]; intros p n R L Hn; cbn [Amort_Spec.copied]; [lia|].
    pose proof (serve _ _ _ _ _ _ _ _ _ _ _ R P E) as [_ R1].
    assert (lifo (abs_step dfltV a (o, r)) = true) as L1.
    { rewrite (steps_lifo dfltK dfltV ismap hashf eqf ok a s [(o, r)] (abs_step dfltV a (o, r)) s1); [done|]. econstructor; [done..|constructor]. }
    cbn [fst]. rewrite E. cbn [snd]. rewrite Z.add_assoc. apply IH; [done..|].
    destruct (call_caps _ _ _ _ _ _ _ _ _ _ _ R L P E) as [Hc|(Hlt & Hc & Ht)]; injection Hc as Ec1 _; destruct (Z.eqb_spec (capacity s1) (capacity s)); lia.
  Qed.
  Lemma hash_cost cap n e s0 h a s : new cap (LF n e) = Ok s0 -> lf_dense cap (LF n e) = true ->
    steps (abs0 cap (LF n e)) s0 h a s -> copied hstep capacity s0 h * n <= 2 * busiest dfltV (abs0 cap (LF n e)) h * 2 ^ e.
  Proof.
    intros E D H. assert (reachable (abs0 cap (LF n e)) s0) as R by (by eapply reach_new).
    assert (0 < n) as Hn.
    { revert E. unfold new_Hash. destruct (_ || _); [done|]. cbn [lf_bad]. destruct (Z.leb_spec n 0); [done|lia]. }
    pose proof (hash_copied _ _ _ _ _ H (capacity s0) 0 R D ltac:(lia)) as Hc.
    assert (in_use (abs0 (K:=K) (V:=V) cap (LF n e)) = 0) as E0 by (unfold in_use; cbn; rewrite !map_size_empty; done).
    assert (loadFactor s0 = LF n e) as El.
    { revert E. unfold new_Hash. destruct (_ || _) eqn:Eo; [done|].
      destruct (lf_bad _); [done|]. cbv zeta. repeat (match goal with |- context [match ?x with _ => _ end] => destruct x; try done end).
      by intros [= <-]. }
    destruct (sizes _ _ _ _ _ _ _ _ _ _ _ H (capacity s0) n e 0 R D ltac:(lia)) as (_ & j & Hj & Ecs & H1 & H2).
    { split; [done|]. exists 0. rewrite Z.mul_1_r. split; [done|]. split; [done|]. split; [|lia].
      destruct (in_use_fits _ _ _ _ _ _ _ _ n e R D El) as [|]; [left|by right]. by rewrite E0 in *. }
    assert (0 <= busiest dfltV (abs0 cap (LF n e)) h) as Hb.
    { destruct h; cbn [busiest]; rewrite E0; lia. }
    rewrite Z.max_r in H1, H2 by done.
    pose proof (reachable_inv _ _ R) as (C & fr & I). pose proof (core_cap_pos _ _ _ _ _ (i_core _ _ _ _ I)).
    assert (0 <= 2 ^ e) by (destruct (Z.lt_ge_cases e 0); [rewrite Z.pow_neg_r; lia|lia]).
    destruct (decide (j = 0)) as [->|].
    - rewrite Z.mul_1_r in Ecs. nia.
    - specialize (H2 ltac:(lia)). nia.
  Qed.
End Hash.
