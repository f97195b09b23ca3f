(** What growing costs a chunk store, for C97. *)
From Verif Require Import JBase JLemmas JHist JBits Num_Model Num_Spec Num_Proofs Store_Model Store_Spec Store_Proofs Amort_Spec.

Section Store.
  Context {A : Type} (dflt : A).
  Notation SR := (SR dflt).
  Definition set_step (o : Z * A) : M (store A) unit := cs_set dflt o.1 o.2.
  Notation chunks := (fun s : store A => alen (cs_chunks s)).

  (** The array of chunks is replaced by one that has exactly the chunks needed. *)
  Lemma set_len k s f i x : 0 <= k <= 30 -> SR k s f -> 0 <= i < 2 ^ 31 - 2 ^ k ->
    exists s' g, cs_set dflt i x s = (Ok tt, s') /\ SR k s' g /\ chunks s' = Z.max (chunks s) (i / 2 ^ k + 1).
  Proof.
    intros Hk R Hi. destruct (set_SR dflt k s f i x Hk R ltac:(lia)) as (s' & E & R'). exists s', (tmap_set f (i, x)).
    destruct (Z.ltb_spec i 0); [lia|]. split; [done|]. split; [done|].
    destruct R as (E1 & E2 & E3 & E4 & Hb & HR). pose proof (pow2_31 k Hk). change (2 ^ 31) with 2147483648 in *.
    unfold cs_set in E. rewrite bind_gets, E4, Z.geb_leb in E. pose proof (alen_nonneg (cs_chunks s)).
    pose proof (Z.div_mod i (2 ^ k) ltac:(lia)) as Hdm. pose proof (Z.mod_pos_bound i (2 ^ k) ltac:(lia)).
    destruct (Z.leb_spec (alen (cs_chunks s) * 2 ^ k) i) as [Hc|Hc].
    - rewrite i32_id in E by (unfold is_i32; lia). pose proof (ceil_div_spec (i + 1) (2 ^ k) ltac:(lia)) as Hcd.
      destruct (RI_grow dflt (2 ^ k) (cs_chunks s) f (ceil_div (i + 1) (2 ^ k))) as (ch & EG & L & R); [lia|done|nia|].
      erewrite bind_ok in E by (unfold cs_grow; rewrite E1, EG; reflexivity).
      rewrite bind_modify in E. cbn [cs_chunkMask cs_shift cs_chunks] in E. rewrite E2, E3, land_ones_mod, sar32_div in E by lia.
      destruct (RI_set dflt (2 ^ k) ch f i x) as (ch' & E5 & L' & R2); [lia|done|rewrite L; nia|]. rewrite E5 in E. injection E as <-.
      cbn [cs_chunks]. rewrite L', L. assert (ceil_div (i + 1) (2 ^ k) = i / 2 ^ k + 1) as -> by nia. nia.
    - rewrite bind_ret, bind_modify in E. cbn [cs_chunkMask cs_shift cs_chunks] in E. rewrite E2, E3, land_ones_mod, sar32_div in E by lia.
      destruct (RI_set dflt (2 ^ k) (cs_chunks s) f i x) as (ch' & E5 & L' & R2); [lia|done|lia|]. rewrite E5 in E. injection E as <-.
      cbn [cs_chunks]. rewrite L'. nia.
  Qed.

  (** Filling chunk after chunk. *)
  Lemma fill_cost k (m : nat) x : 0 <= k <= 30 -> forall s f, SR k s f -> (chunks s + Z.of_nat m + 1) * 2 ^ k <= 2 ^ 31 ->
    exists h s', hist set_step s h s' /\ map fst h = map (fun i => (i * 2 ^ k, x)) (seqZ (chunks s) (Z.of_nat m)) /\
      2 * copied set_step chunks s h = Z.of_nat m * (2 * chunks s + Z.of_nat m - 1).
  Proof.
    intros Hk. induction m as [|m IH]; intros s f R Hb.
    - exists [], s. split; [constructor|]. split; [done|]. cbn. lia.
    - pose proof (pow2_31 k Hk). change (2 ^ 31) with 2147483648 in *. pose proof (alen_nonneg (cs_chunks s)). cbv beta in *.
      destruct (set_len k s f (alen (cs_chunks s) * 2 ^ k) x Hk R) as (s1 & g & E & R1 & L).
      { change (2 ^ 31) with 2147483648. nia. }
      rewrite Z.div_mul, Z.max_r in L by lia. cbv beta in L.
      destruct (IH s1 g R1) as (h & s' & H1 & H2 & H3).
      { change (2 ^ 31) with 2147483648. rewrite L. nia. }
      exists (((alen (cs_chunks s) * 2 ^ k, x), Ok tt) :: h), s'. split; [econstructor; [exact E|done|done]|].
      rewrite (seqZ_cons (alen (cs_chunks s)) (Z.of_nat (S m))) by lia. cbn [map fst]. cbv beta in H2. rewrite H2, L.
      replace (Z.pred (Z.of_nat (S m))) with (Z.of_nat m) by lia. split; [done|].
      assert (set_step (alen (cs_chunks s) * 2 ^ k, x) s = (Ok tt, s1)) as Es by exact E.
      cbn [copied fst]. rewrite !Es. cbn [snd]. cbv beta in *. rewrite L in *. destruct (Z.eqb_spec (alen (cs_chunks s) + 1) (alen (cs_chunks s))); [lia|]. nia.
  Qed.
End Store.
