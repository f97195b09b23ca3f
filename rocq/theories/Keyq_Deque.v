(** A HydraDeque that is not cleared, as a finite map from ids to lists. *)
From Verif Require Import JBase JLemmas JHist Num_Model Hydra_Model Hydra_Spec Hydra_Proofs.

Section Dq.
  Context {A : Type} (dflt : A).

  Definition deque_of (d : lists A) (s : hydra A) : Prop :=
    exists E F, HInv dflt s d E F [] 0 /\ maxEntry s + 1 <= 2 ^ 30 - 1.

  Lemma dq_new q cap s : new_Hydra dflt q cap = Ok s -> is_i32 q -> is_i32 cap -> deque_of ∅ s.
  Proof.
    intros E Hq Hc. destruct (new_HRel dflt q cap s E Hq Hc) as (E0 & F & lost & I & H1 & H2 & _ & Hl).
    rewrite (Hl Logic.I) in *. exists E0, F. split; [done|]. change (2 ^ 30 - 1) with 1073741823. lia.
  Qed.
  Lemma dq_push d s id x : deque_of d s -> 0 <= id < 2 ^ 29 -> total d < 2 ^ 30 - 1 ->
    exists e s', h_addLast dflt id x s = (Ok e, s') /\ deque_of (<[id := lst d id ++ [x]]> d) s'.
  Proof.
    change (2 ^ 29) with 536870912. change (2 ^ 30 - 1) with 1073741823.
    intros (E & F & I & Hb) Hid Ht. change (2 ^ 30 - 1) with 1073741823 in Hb.
    destruct (h_addLast_ok dflt s d E F 0 id x I ltac:(unfold is_i32; lia)) as (r & s' & Er & HP).
    destruct r as [e|y|]; cbn [add_post] in HP.
    - destruct HP as (_ & F' & I' & _ & Hm). exists e, s'. split; [done|]. eexists _, F'. split; [exact I'|].
      change (2 ^ 30 - 1) with 1073741823. destruct Hm as [->|[Hm ->]]; [lia|].
      pose proof (hi_sum _ _ _ _ _ _ _ I') as Hs. rewrite (hi_size _ _ _ _ _ _ _ I'), total_insert, app_length in Hs.
      change (alen (@nil Z)) with 0 in Hs. cbn [length] in Hs. lia.
    - destruct HP as (_ & Hi & _). change (2 ^ 30) with 1073741824 in Hi. lia.
    - change (2 ^ 30) with 1073741824 in HP. lia.
  Qed.
  Lemma dq_poll d s id x l : deque_of d s -> lst d id = x :: l ->
    exists s', h_removeFirst dflt id s = (Ok x, s') /\ deque_of (<[id := l]> d) s'.
  Proof.
    intros (E & F & I & Hb) El. pose proof (h_removeFirst_ok dflt s d E F 0 id I) as HP. rewrite El in HP.
    destruct HP as (s' & e & r & F' & Er & _ & I' & Hm). exists s'. split; [done|]. eexists _, F'. split; [exact I'|]. by rewrite Hm.
  Qed.
  Lemma dq_size d s id : deque_of d s -> h_sizeOf id s = (Ok (Z.of_nat (length (lst d id))), s).
  Proof.
    intros (E & F & I & Hb). unfold h_sizeOf. mon. rewrite (hi_qc _ _ _ _ _ _ _ I), Z.geb_leb.
    rewrite <- (inv_len dflt _ _ _ _ _ _ id I).
    destruct (Z.leb_spec (alen (heads s)) id), (Z.ltb_spec id 0); cbn [orb];
      try (rewrite (hi_ids _ _ _ _ _ _ _ I) by lia; reflexivity).
    apply rd_ok. apply I. lia.
  Qed.
  Lemma dq_list d s id : deque_of d s -> 0 <= id -> it_all heads nexts id s = (Ok (lst d id, Exn InvalidEntry), s).
  Proof.
    intros (E & F & I & Hb) Hid.
    rewrite (it_all_ok dflt _ _ _ _ _ id heads nexts (fun l => l) (lst d id) I
        eq_refl (hi_heads _ _ _ _ _ _ _ I) eq_refl eq_refl (hi_next _ _ _ _ _ _ _ I id) (hi_val _ _ _ _ _ _ _ I id)).
    by rewrite decide_True.
  Qed.
  Lemma dq_total d s : deque_of d s -> hsize s = total d.
  Proof. intros (E & F & I & _). apply I. Qed.
End Dq.
