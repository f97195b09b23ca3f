(** An indexed set whose key equality is equality, as an injective finite map from keys to
    entries. *)
From Verif Require Import JBase JLemmas JHist Num_Model Hash_Model Hash_Spec Hash_Proofs Hash_Step Hash_Calls Hash_Main
  Hash_More Hash_Props Bi_Proofs App_Link.

Section St.
  Context {K : Type} `{Countable K}.
  Variable dfltK : K.
  Variables (hashf : Z -> K -> Z) (eqf : Z -> K -> K -> bool).
  Hypothesis Leib : forall q a b, eqf q a b = true <-> a = b.
  Notation okK := (fun _ : K => True).
  Notation reachable := (reachable dfltK tt false hashf eqf okK).

  Definition set_of (c : gmap K Z) (s : hash K unit) : Prop :=
    exists a, reachable a s /\ lifo a = true /\ reserved a = ∅ /\ size c = size (live a) /\
      forall k e, c !! k = Some e <-> live a !! e = Some (k, tt).

  Lemma st_lacks a (c : gmap K Z) k : (forall k e, c !! k = Some e <-> live a !! e = Some (k, tt)) ->
    lacks eqf a k <-> c !! k = None.
  Proof.
    intros Hc. split.
    - intros L. destruct (c !! k) as [e|] eqn:E; [|done]. apply Hc in E. specialize (L e k tt E).
      assert (eqf (eqn a) k k = true) by (by apply Leib). congruence.
    - intros E e k' [] El. destruct (eqf (eqn a) k k') eqn:Q; [|done]. apply Leib in Q as <-.
      apply Hc in El. congruence.
  Qed.
  Lemma st_holds a (c : gmap K Z) k e : (forall k e, c !! k = Some e <-> live a !! e = Some (k, tt)) ->
    holds eqf a k e -> c !! k = Some e.
  Proof. intros Hc (k' & [] & El & ->%Leib). by apply Hc. Qed.
  Lemma st_new cap l s : new_Hash dfltK tt false cap l = Ok s -> lf_dense cap l = true -> set_of ∅ s.
  Proof.
    intros E Hl. exists (abs0 cap l). split; [by apply reach_new|]. done.
  Qed.
  Lemma st_size c s : set_of c s -> hsize s = Z.of_nat (size c).
  Proof.
    intros (a & R & _ & _ & Hs & _). rewrite Hs.
    destruct (serve _ _ _ _ _ _ a s HSize (Ok (HZ (hsize s))) s R Logic.I eq_refl) as [A _]. exact A.
  Qed.
  Lemma st_inj c s k k' e : set_of c s -> c !! k = Some e -> c !! k' = Some e -> k = k'.
  Proof. intros (a & R & _ & _ & _ & Hc) E E'. apply Hc in E. apply Hc in E'. congruence. Qed.
  Lemma st_range c s k e : set_of c s -> c !! k = Some e -> 0 <= e < MAX_CAPACITY.
  Proof.
    intros (a & R & _ & _ & _ & Hc) E. apply Hc in E. destruct (reachable_inv _ _ R) as (C & fr & I). pose proof (i_core _ _ _ _ I) as Ic.
    destruct (c_rng _ _ _ _ _ Ic e) as [Hr _]; [left; by eexists|]. pose proof (c_max _ _ _ _ _ Ic). lia.
  Qed.
  Lemma st_lookup c s k : set_of c s -> lookupEntry hashf eqf k s = (Ok (default (-1) (c !! k)), s).
  Proof.
    intros (a & R & Hl & Hr & Hs & Hc). destruct (reachable_inv _ _ R) as (C & fr & I).
    destruct (lookup_ok (dfltK:=dfltK) _ _ _ _ k I Logic.I) as [[E Ha]|(e & E & He & Ha)]; rewrite E.
    - apply (st_lacks a c k Hc) in Ha. by rewrite Ha.
    - by rewrite (st_holds a c k e Hc Ha).
  Qed.
  Lemma st_add c s k : set_of c s -> is_Some (c !! k) \/ Z.of_nat (size c) < MAX_CAPACITY ->
    exists e s', h_add dfltK tt false hashf eqf k s = (Ok e, s') /\ set_of (<[k := e]> c) s' /\
      (c !! k = Some e \/ (c !! k = None /\ forall k', c !! k' <> Some e)).
  Proof.
    intros (a & R & Hl & Hr & Hs & Hc) Hf. destruct (h_add dfltK tt false hashf eqf k s) as [r s'] eqn:E.
    pose proof (out_map_run (@HZ K unit) _ _ _ _ E) as E'.
    destruct (serve _ _ _ _ _ _ a s (HAdd k) _ s' R (conj Logic.I (leib_good hashf eqf okK Leib _ _)) E') as [A R'].
    destruct r as [e|x|]; [|exfalso|by destruct A].
    - exists e, s'. split; [done|]. cbn in A, R'. destruct A as [A|(La & Ln & _ & _ & He)].
      + pose proof (st_holds a c k e Hc A) as Ek. pose proof Ek as Ev. apply Hc in Ev. rewrite Ev in R'.
        rewrite insert_id by done. split; [|by left]. by exists a.
      + rewrite Ln in R'. apply (st_lacks a c k Hc) in La. split; [|right; split; [done|]; intros k' Ek'%Hc; congruence].
        eexists. split; [exact R'|]. cbn. split; [done|]. split; [done|].
        split; [rewrite !map_size_insert_None by done; by rewrite Hs|].
        intros k' e'. destruct (decide (k' = k)) as [->|Nk].
        * rewrite lookup_insert. split; [intros [= <-]; by rewrite lookup_insert|]. intros Ee'.
          destruct (decide (e' = e)) as [->|Ne]; [done|]. rewrite lookup_insert_ne in Ee' by done. apply Hc in Ee'. congruence.
        * rewrite lookup_insert_ne by done. rewrite Hc. split; intros Ee'.
          -- rewrite lookup_insert_ne; [done|]. intros <-. congruence.
          -- destruct (decide (e' = e)) as [->|Ne]; [rewrite lookup_insert in Ee'; congruence|]. by rewrite lookup_insert_ne in Ee'.
    - cbn in A. destruct A as (La & _ & A). destruct (A Hl) as [_ Hu]. unfold in_use in Hu. rewrite Hr, map_size_empty in Hu.
      apply (st_lacks a c k Hc) in La. destruct Hf as [[? Hf]|Hf]; [congruence|]. rewrite Hs in Hf. lia.
  Qed.
  Lemma st_removeAt c s k e : set_of c s -> c !! k = Some e ->
    exists s', h_removeAt dfltK tt false e s = (Ok tt, s') /\ set_of (delete k c) s'.
  Proof.
    intros (a & R & Hl & Hr & Hs & Hc) Ek. destruct (h_removeAt dfltK tt false e s) as [r s'] eqn:E.
    pose proof (out_map_run (fun _ => @HUnit K unit) _ _ _ _ E) as E'.
    pose proof Ek as Ev. apply Hc in Ev.
    destruct (serve _ _ _ _ _ _ a s (HRemoveAt e) _ s' R ltac:(cbn; eauto) E') as [A R'].
    destruct r as [[]|x|]; [|exfalso; destruct A as (_ & A & _); congruence|by destruct A].
    exists s'. split; [done|]. cbn in R'. rewrite Ev in R'. eexists. split; [exact R'|]. cbn. split; [done|]. split; [done|]. split.
    - rewrite !map_size_delete_Some; [by rewrite Hs|by eexists|by eexists].
    - intros k' e'. split.
      + intros [Nk E1]%lookup_delete_Some. apply Hc in E1. rewrite lookup_delete_ne; [done|]. intros <-. congruence.
      + intros [Ne E1]%lookup_delete_Some. apply Hc in E1. rewrite lookup_delete_ne; [done|]. intros <-. congruence.
  Qed.
End St.
