(** An indexed map whose key equality is equality, as a finite map from keys to values. *)
From Verif Require Import JBase JLemmas JHist Num_Model Hash_Model Hash_Spec Hash_Proofs Hash_Step Hash_Calls Hash_Main
  Hash_More Hash_Props Bi_Proofs App_Link.

Section Fm.
  Context {K V : Type} `{Countable K}.
  Variables (dfltK : K) (dfltV : V).
  Variables (hashf : Z -> K -> Z) (eqf : Z -> K -> K -> bool).
  Hypothesis Leib : forall q a b, eqf q a b = true <-> a = b.
  Notation okK := (fun _ : K => True).
  Notation reachable := (reachable dfltK dfltV true hashf eqf okK).

  Definition fmap_of (c : gmap K V) (s : hash K V) : Prop :=
    exists a, reachable a s /\ lifo a = true /\ reserved a = ∅ /\ size c = size (live a) /\
      forall k v, c !! k = Some v <-> exists e, live a !! e = Some (k, v).

  Lemma fm_lacks a (c : gmap K V) k : (forall k v, c !! k = Some v <-> exists e, live a !! e = Some (k, v)) ->
    lacks eqf a k <-> c !! k = None.
  Proof.
    intros Hc. split.
    - intros L. destruct (c !! k) as [v|] eqn:E; [|done]. apply Hc in E as [e E]. specialize (L e k v E).
      assert (eqf (eqn a) k k = true) by (by apply Leib). congruence.
    - intros E e k' v El. destruct (eqf (eqn a) k k') eqn:Q; [|done]. apply Leib in Q as <-.
      assert (c !! k = Some v) by (apply Hc; by exists e). congruence.
  Qed.
  Lemma fm_uniq a s e e' k v v' : reachable a s -> live a !! e = Some (k, v) -> live a !! e' = Some (k, v') -> e = e'.
  Proof.
    intros R E E'. eapply (reach_same dfltK dfltV true hashf eqf okK a s k); [done|done| |].
    - exists k, v'. split; [done|by apply Leib].
    - exists k, v. split; [done|by apply Leib].
  Qed.
  Lemma fm_new cap l s : new_Hash dfltK dfltV true cap l = Ok s -> lf_dense cap l = true -> fmap_of ∅ s.
  Proof.
    intros E Hl. exists (abs0 cap l). split; [by apply reach_new|]. split; [done|]. split; [done|]. split; [done|].
    intros k v. split; [done|]. intros [e He]. done.
  Qed.
  Lemma fm_size c s : fmap_of c s -> hsize s = Z.of_nat (size c).
  Proof.
    intros (a & R & _ & _ & Hs & _). rewrite Hs.
    destruct (serve _ _ _ _ _ _ a s HSize (Ok (HZ (hsize s))) s R Logic.I eq_refl) as [A _]. exact A.
  Qed.
  Lemma fm_get c s k d : fmap_of c s -> h_getOrDefault hashf eqf k d s = (Ok (default d (c !! k)), s).
  Proof.
    intros (a & R & Hl & Hr & Hs & Hc). destruct (reachable_inv _ _ R) as (C & fr & I). unfold h_getOrDefault.
    destruct (lookup_ok (dfltK:=dfltK) _ _ _ _ k I Logic.I) as [[E Ha]|(e & E & He & (k' & v & El & Ee))].
    - rewrite (bind_ok _ _ _ _ _ E). apply (fm_lacks a c k Hc) in Ha. by rewrite Ha.
    - rewrite (bind_ok _ _ _ _ _ E). apply Leib in Ee as <-. destruct (Z.eqb_spec e (-1)); [lia|].
      assert (c !! k = Some v) as -> by (apply Hc; by exists e).
      destruct (c_keys _ _ _ _ _ (i_core _ _ _ _ I) e k v ltac:(by left)) as [_ Hv]. apply rd_ok. auto.
  Qed.
  Lemma fm_put c s k v : fmap_of c s -> is_Some (c !! k) \/ Z.of_nat (size c) < MAX_CAPACITY ->
    exists e s', h_put dfltK dfltV true hashf eqf k v s = (Ok e, s') /\ fmap_of (<[k := v]> c) s'.
  Proof.
    intros (a & R & Hl & Hr & Hs & Hc) Hf. destruct (h_put dfltK dfltV true hashf eqf k v s) as [r s'] eqn:E.
    pose proof (out_map_run (@HZ K V) _ _ _ _ E) as E'.
    destruct (serve _ _ _ _ _ _ a s (HPut k v) _ s' R (conj Logic.I (conj (leib_good hashf eqf okK Leib _ _) eq_refl)) E') as [A R'].
    destruct r as [e|x|]; [|exfalso|by destruct A].
    - exists e, s'. split; [done|]. cbn in A, R'. destruct A as [A|(La & Ln & _ & _ & He)].
      + destruct (held_key dfltK dfltV true hashf eqf okK Leib a s k e R A) as [v0 Ev]. rewrite Ev in R'.
        eexists. split; [exact R'|]. cbn. split; [done|]. split; [done|].
        assert (c !! k = Some v0) as Ek by (apply Hc; by exists e). split.
        * rewrite !map_size_insert_Some; [done|by eexists|by eexists].
        * intros k' v'. destruct (decide (k' = k)) as [->|Nk].
          -- rewrite lookup_insert. split; [intros [= <-]; exists e; by rewrite lookup_insert|]. intros [e' Ee'].
             destruct (decide (e' = e)) as [->|Ne]; [rewrite lookup_insert in Ee'; congruence|].
             rewrite lookup_insert_ne in Ee' by done. destruct Ne. exact (fm_uniq _ _ _ _ _ _ _ R Ee' Ev).
          -- rewrite lookup_insert_ne by done. rewrite Hc. split; intros [e' Ee']; exists e'.
             ++ rewrite lookup_insert_ne; [done|]. intros <-. congruence.
             ++ destruct (decide (e' = e)) as [->|Ne]; [rewrite lookup_insert in Ee'; congruence|]. by rewrite lookup_insert_ne in Ee'.
      + rewrite Ln in R'. eexists. split; [exact R'|]. cbn. split; [done|]. split; [done|].
        apply (fm_lacks a c k Hc) in La. split; [rewrite !map_size_insert_None by done; by rewrite Hs|].
        intros k' v'. destruct (decide (k' = k)) as [->|Nk].
        * rewrite lookup_insert. split; [intros [= <-]; exists e; by rewrite lookup_insert|]. intros [e' Ee'].
          destruct (decide (e' = e)) as [->|Ne]; [rewrite lookup_insert in Ee'; congruence|].
          rewrite lookup_insert_ne in Ee' by done. assert (c !! k = Some v') by (apply Hc; by exists e'). congruence.
        * rewrite lookup_insert_ne by done. rewrite Hc. split; intros [e' Ee']; exists e'.
          -- rewrite lookup_insert_ne; [done|]. intros <-. congruence.
          -- destruct (decide (e' = e)) as [->|Ne]; [rewrite lookup_insert in Ee'; congruence|]. by rewrite lookup_insert_ne in Ee'.
    - cbn in A. destruct A as (La & _ & A). destruct (A Hl) as [_ Hu]. unfold in_use in Hu. rewrite Hr, map_size_empty in Hu.
      apply (fm_lacks a c k Hc) in La. destruct Hf as [[? Hf]|Hf]; [congruence|]. rewrite Hs in Hf. lia.
  Qed.
  Lemma fm_remove c s k : fmap_of c s ->
    exists e s', h_remove dfltK dfltV true hashf eqf k s = (Ok e, s') /\ fmap_of (delete k c) s'.
  Proof.
    intros (a & R & Hl & Hr & Hs & Hc). destruct (h_remove dfltK dfltV true hashf eqf k s) as [r s'] eqn:E.
    pose proof (out_map_run (@HZ K V) _ _ _ _ E) as E'.
    destruct (serve _ _ _ _ _ _ a s (HRemove k) _ s' R Logic.I E') as [A R'].
    destruct r as [e|x|]; [|by destruct A..]. exists e, s'. split; [done|]. cbn in A, R'. destruct A as [[He A]|[-> La]].
    - destruct (held_key dfltK dfltV true hashf eqf okK Leib a s k e R A) as [v0 Ev].
      destruct (Z.leb_spec 0 e); [|lia]. eexists. split; [exact R'|]. cbn. split; [done|]. split; [done|].
      assert (c !! k = Some v0) as Ek by (apply Hc; by exists e). split.
      + rewrite !map_size_delete_Some; [by rewrite Hs|by eexists|by eexists].
      + intros k' v'. destruct (decide (k' = k)) as [->|Nk].
        * rewrite lookup_delete. split; [done|]. intros [e' Ee'].
          destruct (decide (e' = e)) as [->|Ne]; [by rewrite lookup_delete in Ee'|].
          rewrite lookup_delete_ne in Ee' by done. destruct Ne. exact (fm_uniq _ _ _ _ _ _ _ R Ee' Ev).
        * rewrite lookup_delete_ne by done. rewrite Hc. split; intros [e' Ee']; exists e'.
          -- rewrite lookup_delete_ne; [done|]. intros <-. congruence.
          -- by apply lookup_delete_Some in Ee' as [_ ?].
    - apply (fm_lacks a c k Hc) in La. rewrite delete_notin by done. by exists a.
  Qed.
  Lemma fm_clear c s : fmap_of c s -> exists s', h_clear dfltK dfltV true s = (Ok tt, s') /\ fmap_of ∅ s'.
  Proof.
    intros (a & R & Hl & Hr & Hs & Hc). destruct (h_clear dfltK dfltV true s) as [r s'] eqn:E.
    pose proof (out_map_run (fun _ => @HUnit K V) _ _ _ _ E) as E'.
    destruct (serve _ _ _ _ _ _ a s HClear _ s' R Logic.I E') as [A R'].
    destruct r as [[]|x|]; [|by destruct A..]. exists s'. split; [done|]. eexists. split; [exact R'|]. cbn. split; [done|].
    split; [done|]. split; [done|]. intros k v. split; [done|]. intros [e He]. done.
  Qed.
End Fm.
