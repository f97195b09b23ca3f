(** The linked lists of a [side]: what insertEntry and removeEntry do to them. *)
From Verif Require Import JBase JLemmas Num_Model Num_Spec Num_Proofs Grow_Lemmas Bi_Model.

Definition vget (d : Z) (l : list Z) (i : Z) : Z := default d (aget l i).
Lemma vget_Some d l i x : aget l i = Some x -> vget d l i = x.
Proof. unfold vget. by intros ->. Qed.
Lemma vget_in d l i : 0 <= i < alen l -> aget l i = Some (vget d l i).
Proof. intros H. unfold vget. by destruct (aget_is_Some l i H) as [x ->]. Qed.
Lemma vget_set d l i : vget d l i <> d -> 0 <= i < alen l.
Proof. unfold vget. destruct (aget l i) eqn:E; [|done]. intros _. by apply aget_Some in E. Qed.
Lemma vget_upd d l i x j : 0 <= i < alen l -> vget d (upd l i x) j = if j =? i then x else vget d l j.
Proof.
  intros H. unfold vget. destruct (Z.eqb_spec j i) as [->|Hn]; [by rewrite aget_upd_eq|].
  rewrite aget_upd_ne by lia. done.
Qed.
Lemma vget_padto d l n j : alen l <= n -> vget d (padto l n d) j = vget d l j.
Proof.
  intros H. unfold vget. rewrite aget_padto by done. case_decide as D; [|done].
  by rewrite aget_out by lia.
Qed.
Lemma vget_neg d l j : j < 0 -> vget d l j = d.
Proof. intros H. unfold vget. by rewrite aget_out by lia. Qed.

Definition hd_of (sd : side) (k : Z) : Z := vget (-1) (sheads sd) k.
Definition nx (sd : side) (e : Z) : Z := vget (-1) (snexts sd) e.
Definition pv (sd : side) (e : Z) : Z := vget (-1) (sprevs sd) e.
Definition ct (sd : side) (k : Z) : option Z := (fun c => vget 0 c k) <$> scount sd.
Definition clen (sd : side) : Z := match scount sd with Some c => alen c | None => 0 end.

(** No array is longer than Java allows. *)
Definition swf (sd : side) : Prop :=
  alen (sheads sd) <= MAX_INT /\ alen (snexts sd) <= MAX_INT /\ alen (sprevs sd) <= MAX_INT /\ clen sd <= MAX_INT.
(** [sd'] is [sd] with arrays no shorter. *)
Definition longer (sd sd' : side) : Prop :=
  alen (sheads sd) <= alen (sheads sd') /\ alen (snexts sd) <= alen (snexts sd') /\
  alen (sprevs sd) <= alen (sprevs sd') /\ clen sd <= clen sd' /\ (is_Some (scount sd) <-> is_Some (scount sd')).
(** The same lists. *)
Definition alike (sd sd' : side) : Prop :=
  swf sd' /\ longer sd sd' /\ (forall k, hd_of sd' k = hd_of sd k) /\ (forall e, nx sd' e = nx sd e) /\
  (forall e, pv sd' e = pv sd e) /\ (forall k, ct sd' k = ct sd k).
Lemma longer_refl sd : longer sd sd.
Proof. unfold longer. repeat match goal with |- _ /\ _ => split end; try lia; done. Qed.
Lemma longer_trans s1 s2 s3 : longer s1 s2 -> longer s2 s3 -> longer s1 s3.
Proof.
  intros (A1 & A2 & A3 & A4 & A5) (B1 & B2 & B3 & B4 & B5). unfold longer.
  repeat match goal with |- _ /\ _ => split end; try lia. by rewrite A5.
Qed.
Lemma alike_refl sd : swf sd -> alike sd sd.
Proof. intros H. unfold alike. repeat match goal with |- _ /\ _ => split end; try done; apply longer_refl. Qed.
Lemma alike_trans s1 s2 s3 : alike s1 s2 -> alike s2 s3 -> alike s1 s3.
Proof.
  intros (A1 & A2 & A3 & A4 & A5 & A6) (B1 & B2 & B3 & B4 & B5 & B6). unfold alike.
  repeat match goal with |- _ /\ _ => split end; try done; try (by eapply longer_trans); intros x.
  - by rewrite B3. - by rewrite B4. - by rewrite B5. - by rewrite B6.
Qed.

(** [ensureEntry] with the fill value as default. *)
Lemma grown_alike l size n : alen l <= MAX_INT -> grown (alen l) size = Ok n ->
  alen l <= alen (padto l n (-1)) <= MAX_INT /\ size <= alen (padto l n (-1)).
Proof.
  intros H G. pose proof (grown_ge _ _ _ G). pose proof (alen_nonneg l).
  pose proof (grown_max _ _ _ (conj (alen_nonneg l) H) G). rewrite alen_padto by lia. lia.
Qed.

(** What [ensureKey] does if it returns, and when it returns. *)
Lemma ensureKey_Ok k sd x sd' : swf sd -> ensureKey k sd = (Ok x, sd') -> alike sd sd'.
Proof.
  intros (W1 & W2 & W3 & W4) E. unfold ensureKey, ensureEntry_with in E. rewrite bind_gets in E.
  rewrite ensureSize_with_grown in E by done.
  destruct (grown (alen (sheads sd)) (i32 (k + 1))) as [n|e|] eqn:G; try done.
  rewrite (bind_of_res (Ok (padto (sheads sd) n (-1))) _) in E by done. rewrite bind_modify, bind_gets in E. cbn in E.
  destruct (grown_alike _ _ _ W1 G) as [L1 _]. pose proof (grown_ge _ _ _ G) as Gn.
  unfold clen in W4. destruct (scount sd) as [c|] eqn:Ec.
  - unfold ensureEntry in E. rewrite ensureSize_grown in E. destruct (grown (alen c) (i32 (k + 1))) as [m|e|] eqn:G2; try done.
    rewrite (bind_of_res (Ok (padto c m 0)) _) in E by done. injection E as _ <-.
    pose proof (grown_ge _ _ _ G2) as Gm. pose proof (grown_max _ _ _ (conj (alen_nonneg c) W4) G2).
    unfold alike, swf, longer, clen, hd_of, nx, pv, ct. cbn. rewrite Ec. cbn. rewrite (alen_padto c) by lia.
    repeat match goal with |- _ /\ _ => split end; try done; try lia; intros i.
    + apply vget_padto. lia.
    + f_equal. apply vget_padto. lia.
  - injection E as _ <-. unfold alike, swf, longer, clen, hd_of, nx, pv, ct. cbn. rewrite Ec. cbn.
    repeat match goal with |- _ /\ _ => split end; try done; try lia; intros i. apply vget_padto. lia.
Qed.
Lemma ensureKey_fits k sd : swf sd -> 0 <= k < 1073741824 -> exists sd', ensureKey k sd = (Ok tt, sd') /\ k < alen (sheads sd') /\
  (is_Some (scount sd) -> k < clen sd').
Proof.
  intros (W1 & W2 & W3 & W4) Hk. unfold ensureKey, ensureEntry_with. rewrite bind_gets.
  rewrite ensureSize_with_grown by done. rewrite i32_id by (unfold is_i32; lia).
  destruct (grown_small (alen (sheads sd)) (k + 1)) as (n & G & _); [apply alen_nonneg|lia|]. rewrite G.
  rewrite (bind_of_res (Ok (padto (sheads sd) n (-1))) _) by done. rewrite bind_modify, bind_gets. cbn.
  pose proof (grown_ge _ _ _ G) as Gn. unfold clen in *. destruct (scount sd) as [c|] eqn:Ec.
  - unfold ensureEntry. rewrite ensureSize_grown, i32_id by (unfold is_i32; lia).
    destruct (grown_small (alen c) (k + 1)) as (m & G2 & _); [apply alen_nonneg|lia|]. rewrite G2.
    rewrite (bind_of_res (Ok (padto c m 0)) _) by done. pose proof (grown_ge _ _ _ G2) as Gm.
    eexists. split; [reflexivity|]. cbn. rewrite !alen_padto by lia. split; [lia|]. intros _. lia.
  - eexists. split; [reflexivity|]. cbn. rewrite alen_padto by lia. split; [lia|]. by intros [? ?].
Qed.
Lemma ensureEntry_Ok e sd x sd' : swf sd -> side_ensureEntry e sd = (Ok x, sd') -> alike sd sd'.
Proof.
  intros (W1 & W2 & W3 & W4) E. unfold side_ensureEntry, ensureEntry_with in E. rewrite bind_gets in E.
  rewrite ensureSize_with_grown in E by done.
  destruct (grown (alen (snexts sd)) (i32 (e + 1))) as [n|y|] eqn:G; try done.
  rewrite (bind_of_res (Ok (padto (snexts sd) n (-1))) _) in E by done. rewrite bind_modify, bind_gets in E. cbn in E.
  rewrite ensureSize_with_grown in E by done.
  destruct (grown (alen (sprevs sd)) (i32 (e + 1))) as [m|y|] eqn:G2; try done.
  injection E as _ <-.
  destruct (grown_alike _ _ _ W2 G) as [L1 _]. pose proof (grown_ge _ _ _ G) as Gn.
  destruct (grown_alike _ _ _ W3 G2) as [L2 _]. pose proof (grown_ge _ _ _ G2) as Gm.
  unfold alike, swf, longer, clen, hd_of, nx, pv, ct in *. cbn.
  repeat match goal with |- _ /\ _ => split end; try done; try lia; intros i; apply vget_padto; lia.
Qed.
Lemma ensureEntry_fits e sd : swf sd -> 0 <= e < 1073741824 -> exists sd', side_ensureEntry e sd = (Ok tt, sd') /\ e < alen (snexts sd') /\ e < alen (sprevs sd').
Proof.
  intros (W1 & W2 & W3 & W4) Hk. unfold side_ensureEntry, ensureEntry_with. rewrite bind_gets.
  rewrite ensureSize_with_grown by done. rewrite i32_id by (unfold is_i32; lia).
  destruct (grown_small (alen (snexts sd)) (e + 1)) as (n & G & _); [apply alen_nonneg|lia|]. rewrite G.
  rewrite (bind_of_res (Ok (padto (snexts sd) n (-1))) _) by done. rewrite bind_modify, bind_gets. cbn.
  pose proof (grown_ge _ _ _ G) as Gn. rewrite ensureSize_with_grown by done.
  destruct (grown_small (alen (sprevs sd)) (e + 1)) as (m & G2 & _); [apply alen_nonneg|lia|]. rewrite G2.
  pose proof (grown_ge _ _ _ G2) as Gm.
  eexists. split; [reflexivity|]. cbn. rewrite !alen_padto by lia. lia.
Qed.

(** Inversion of single reads and writes that succeed. *)
Lemma rd_inv {S A} (f : S -> list A) i s x s' : rd f i s = (Ok x, s') -> aget (f s) i = Some x /\ s' = s.
Proof. unfold rd. destruct (aget (f s) i); [|done]. by intros [= -> ->]. Qed.
Lemma rdl_inv {S A} (l : list A) i (s : S) x s' : rdl l i s = (Ok x, s') -> aget l i = Some x /\ s' = s.
Proof. unfold rdl. destruct (aget l i); [|done]. by intros [= -> ->]. Qed.
Lemma wr_inv {S A} (f : S -> list A) p i (x : A) s y s' :
  wr f p i x s = (Ok y, s') -> 0 <= i < alen (f s) /\ s' = p (upd (f s) i x) s.
Proof.
  intros E. destruct (decide (0 <= i < alen (f s))) as [H|H].
  - rewrite wr_ok in E by done. by injection E as _ <-.
  - by rewrite wr_bad in E.
Qed.

Lemma wr_heads_eff k x sd y sd' : swf sd -> wr_sheads k x sd = (Ok y, sd') ->
  0 <= k < alen (sheads sd) /\ swf sd' /\ longer sd sd' /\ (forall j, hd_of sd' j = if j =? k then x else hd_of sd j) /\
  (forall e, nx sd' e = nx sd e) /\ (forall e, pv sd' e = pv sd e) /\ (forall j, ct sd' j = ct sd j).
Proof.
  intros W [H ->]%wr_inv. unfold swf, longer, clen, hd_of, nx, pv, ct in *. cbn. rewrite alen_upd.
  repeat match goal with |- _ /\ _ => split end; try lia; try done. intros j. by apply vget_upd.
Qed.
Lemma wr_nexts_eff e x sd y sd' : swf sd -> wr_snexts e x sd = (Ok y, sd') ->
  0 <= e < alen (snexts sd) /\ swf sd' /\ longer sd sd' /\ (forall j, hd_of sd' j = hd_of sd j) /\
  (forall j, nx sd' j = if j =? e then x else nx sd j) /\ (forall e, pv sd' e = pv sd e) /\ (forall j, ct sd' j = ct sd j).
Proof.
  intros W [H ->]%wr_inv. unfold swf, longer, clen, hd_of, nx, pv, ct in *. cbn. rewrite alen_upd.
  repeat match goal with |- _ /\ _ => split end; try lia; try done. intros j. by apply vget_upd.
Qed.
Lemma wr_prevs_eff e x sd y sd' : swf sd -> wr_sprevs e x sd = (Ok y, sd') ->
  0 <= e < alen (sprevs sd) /\ swf sd' /\ longer sd sd' /\ (forall j, hd_of sd' j = hd_of sd j) /\
  (forall j, nx sd' j = nx sd j) /\ (forall j, pv sd' j = if j =? e then x else pv sd j) /\ (forall j, ct sd' j = ct sd j).
Proof.
  intros W [H ->]%wr_inv. unfold swf, longer, clen, hd_of, nx, pv, ct in *. cbn. rewrite alen_upd.
  repeat match goal with |- _ /\ _ => split end; try lia; try done. intros j. by apply vget_upd.
Qed.
Lemma bump_eff k d sd y sd' : swf sd -> bump k d sd = (Ok y, sd') ->
  swf sd' /\ longer sd sd' /\ (forall j, hd_of sd' j = hd_of sd j) /\
  (forall j, nx sd' j = nx sd j) /\ (forall j, pv sd' j = pv sd j) /\
  (forall j, ct sd' j = if j =? k then (fun n => i32 (n + d)) <$> ct sd j else ct sd j) /\
  sheads sd' = sheads sd /\ snexts sd' = snexts sd /\ sprevs sd' = sprevs sd.
Proof.
  intros W E. unfold bump in E. rewrite bind_gets in E. destruct (scount sd) as [c|] eqn:Ec.
  - apply bind_inv_ok in E as (n & s1 & [Hg ->]%rdl_inv & E). injection E as _ <-.
    pose proof (aget_Some _ _ _ Hg). unfold swf, longer, clen, hd_of, nx, pv, ct in *. cbn in *. rewrite Ec in *. cbn in *.
    rewrite alen_upd. repeat match goal with |- _ /\ _ => split end; try lia; try done.
    intros j. rewrite vget_upd by done. destruct (Z.eqb_spec j k) as [->|]; [|done]. by rewrite (vget_Some _ _ _ _ Hg).
  - injection E as _ <-. repeat match goal with |- _ /\ _ => split end; try done; try done.
    intros j. unfold ct. rewrite Ec. cbn. by destruct (j =? k).
Qed.

(** insertEntry and removeEntry, when they return. *)
Lemma insert_eff k e sd y sd' : swf sd -> insertEntry k e sd = (Ok y, sd') ->
  0 <= k < alen (sheads sd') /\ swf sd' /\ longer sd sd' /\
  (forall j, hd_of sd' j = if j =? k then e else hd_of sd j) /\
  (forall j, nx sd' j = if negb (hd_of sd k =? -1) && (j =? e) then hd_of sd k else nx sd j) /\
  (forall j, pv sd' j = if negb (hd_of sd k =? -1) && (j =? hd_of sd k) then e else pv sd j) /\
  (forall j, ct sd' j = if j =? k then (fun n => i32 (n + 1)) <$> ct sd j else ct sd j).
Proof.
  intros W E. unfold insertEntry in E. apply bind_inv_ok in E as (? & s1 & E1 & E).
  destruct (ensureKey_Ok _ _ _ _ W E1) as (W1 & L1 & H1 & N1 & P1 & C1).
  apply bind_inv_ok in E as (h & s1' & [Hh ->]%rd_inv & E). apply (vget_Some (-1)) in Hh. fold (hd_of s1 k) in Hh.
  rewrite H1 in Hh. rewrite Hh. apply bind_inv_ok in E as (? & s2 & E2 & E).
  assert (swf s2 /\ longer s1 s2 /\ (forall j, hd_of s2 j = hd_of s1 j) /\
    (forall j, nx s2 j = if negb (h =? -1) && (j =? e) then h else nx s1 j) /\
    (forall j, pv s2 j = if negb (h =? -1) && (j =? h) then e else pv s1 j) /\ (forall j, ct s2 j = ct s1 j)) as (W2 & L2 & H2 & N2 & P2 & C2).
  { destruct (h =? -1); cbn in E2 |- *.
    - injection E2 as _ <-. by pose proof (longer_refl s1).
    - apply bind_inv_ok in E2 as (? & s3 & E3 & E2). destruct (ensureEntry_Ok _ _ _ _ W1 E3) as (W3 & L3 & H3 & N3 & P3 & C3).
      apply bind_inv_ok in E2 as (? & s4 & E4 & E2). destruct (wr_nexts_eff _ _ _ _ _ W3 E4) as (_ & W4 & L4 & H4 & N4 & P4 & C4).
      destruct (wr_prevs_eff _ _ _ _ _ W4 E2) as (_ & W5 & L5 & H5 & N5 & P5 & C5).
      repeat match goal with |- _ /\ _ => split end; [done| | | | |].
      + eauto using longer_trans.
      + intros j. by rewrite H5, H4, H3.
      + intros j. by rewrite N5, N4, N3.
      + intros j. by rewrite P5, P4, P3.
      + intros j. by rewrite C5, C4, C3. }
  apply bind_inv_ok in E as (? & s3 & E3 & E). destruct (wr_heads_eff _ _ _ _ _ W2 E3) as (R3 & W3 & L3 & H3 & N3 & P3 & C3).
  destruct (bump_eff _ _ _ _ _ W3 E) as (W4 & L4 & H4 & N4 & P4 & C4 & _).
  repeat match goal with |- _ /\ _ => split end.
  - lia.
  - destruct L3, L4. lia.
  - done.
  - eauto using longer_trans.
  - intros j. by rewrite H4, H3, H2, H1.
  - intros j. by rewrite N4, N3, N2, N1.
  - intros j. by rewrite P4, P3, P2, P1.
  - intros j. by rewrite C4, C3, C2, C1.
Qed.
Lemma remove_eff k e sd y sd' : swf sd -> removeEntry k e sd = (Ok y, sd') ->
  let p := pv sd e in let n := nx sd e in let b := hd_of sd k =? e in
  0 <= k < alen (sheads sd) /\ swf sd' /\ longer sd sd' /\
  (forall j, hd_of sd' j = if b && (j =? k) then n else hd_of sd j) /\
  (forall j, nx sd' j = if j =? e then -1 else if negb b && negb (p =? -1) && (j =? p) then n else nx sd j) /\
  (forall j, pv sd' j = if j =? e then -1 else if negb b && negb (n =? -1) && (j =? n) then p else pv sd j) /\
  (forall j, ct sd' j = if j =? k then (fun n => i32 (n + -1)) <$> ct sd j else ct sd j).
Proof.
  intros W E. cbv zeta. unfold removeEntry in E.
  apply bind_inv_ok in E as (h & s1' & [Hh ->]%rd_inv & E). pose proof (aget_Some _ _ _ Hh) as Hk.
  apply (vget_Some (-1)) in Hh. fold (hd_of sd k) in Hh. rewrite Hh.
  apply bind_inv_ok in E as (? & s2 & E2 & E).
  assert (swf s2 /\ longer sd s2 /\ (forall j, hd_of s2 j = if (h =? e) && (j =? k) then nx sd e else hd_of sd j) /\
    (forall j, nx s2 j = if negb (h =? e) && negb (pv sd e =? -1) && (j =? pv sd e) then nx sd e else nx sd j) /\
    (forall j, pv s2 j = if negb (h =? e) && negb (nx sd e =? -1) && (j =? nx sd e) then pv sd e else pv sd j) /\
    (forall j, ct s2 j = ct sd j)) as (W2 & L2 & H2 & N2 & P2 & C2).
  { destruct (h =? e); cbn [negb andb] in E2 |- *.
    - apply bind_inv_ok in E2 as (n & s1' & [Hn ->]%rd_inv & E2). apply (vget_Some (-1)) in Hn. fold (nx sd e) in Hn. rewrite Hn.
      destruct (wr_heads_eff _ _ _ _ _ W E2) as (_ & ? & ? & ? & ? & ? & ?).
      repeat match goal with |- _ /\ _ => split end; done.
    - apply bind_inv_ok in E2 as (p & s1' & [Hp ->]%rd_inv & E2). apply (vget_Some (-1)) in Hp. fold (pv sd e) in Hp. rewrite Hp.
      apply bind_inv_ok in E2 as (n & s1' & [Hn ->]%rd_inv & E2). apply (vget_Some (-1)) in Hn. fold (nx sd e) in Hn. rewrite Hn.
      apply bind_inv_ok in E2 as (? & s3 & E3 & E2).
      assert (swf s3 /\ longer sd s3 /\ (forall j, hd_of s3 j = hd_of sd j) /\
        (forall j, nx s3 j = if negb (p =? -1) && (j =? p) then n else nx sd j) /\
        (forall j, pv s3 j = pv sd j) /\ (forall j, ct s3 j = ct sd j)) as (W3 & L3 & H3 & N3 & P3 & C3).
      { destruct (p =? -1); cbn [negb andb] in E3 |- *.
        - injection E3 as _ <-. by pose proof (longer_refl sd).
        - by destruct (wr_nexts_eff _ _ _ _ _ W E3) as (_ & ? & ? & ? & ? & ? & ?). }
      destruct (n =? -1); cbn [negb andb] in E2 |- *.
      + by injection E2 as _ <-.
      + destruct (wr_prevs_eff _ _ _ _ _ W3 E2) as (_ & W4 & L4 & H4 & N4 & P4 & C4).
        repeat match goal with |- _ /\ _ => split end; [done| | | | |].
        * eauto using longer_trans.
        * intros j. by rewrite H4, H3.
        * intros j. by rewrite N4, N3.
        * intros j. by rewrite P4, P3.
        * intros j. by rewrite C4, C3. }
  apply bind_inv_ok in E as (? & s3 & E3 & E). destruct (wr_prevs_eff _ _ _ _ _ W2 E3) as (_ & W3 & L3 & H3 & N3 & P3 & C3).
  apply bind_inv_ok in E as (? & s4 & E4 & E). destruct (wr_nexts_eff _ _ _ _ _ W3 E4) as (_ & W4 & L4 & H4 & N4 & P4 & C4).
  destruct (bump_eff _ _ _ _ _ W4 E) as (W5 & L5 & H5 & N5 & P5 & C5 & _).
  repeat match goal with |- _ /\ _ => split end; [lia|lia|done| | | | |].
  - eauto using longer_trans.
  - intros j. by rewrite H5, H4, H3, H2.
  - intros j. by rewrite N5, N4, N3, N2.
  - intros j. by rewrite P5, P4, P3, P2.
  - intros j. by rewrite C5, C4, C3, C2.
Qed.
