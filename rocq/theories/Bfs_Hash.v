(** [containsKey] of an indexed map seen as a finite map. *)
From Verif Require Import JBase JLemmas JHist Num_Model Hash_Model Hash_Spec Hash_Proofs Hash_Step Hash_Calls Hash_Main Sched_Hash.

Section Fm.
  Context {K V : Type} `{Countable K}.
  Variables (dfltK : K) (dfltV : V).
  Variables (hashf : Z -> K -> Z) (eqf : Z -> K -> K -> bool).
  Hypothesis Leib : forall q a b, eqf q a b = true <-> a = b.

  Lemma fm_lookup c s k : fmap_of dfltK dfltV hashf eqf c s ->
    exists e, lookupEntry hashf eqf k s = (Ok e, s) /\ (e =? -1) = match c !! k with Some _ => false | None => true end.
  Proof.
    intros (a & R & Hl & Hr & Hs & Hc). destruct (reachable_inv _ _ R) as (C & fr & I).
    destruct (lookup_ok (dfltK:=dfltK) _ _ _ _ k I Logic.I) as [[E Ha]|(e & E & He & (k' & v & El & Ee))].
    - exists (-1). split; [done|]. apply (fm_lacks eqf Leib a c k Hc) in Ha. by rewrite Ha.
    - exists e. split; [done|]. apply Leib in Ee as <-. assert (c !! k = Some v) as -> by (apply Hc; by exists e).
      apply Z.eqb_neq. lia.
  Qed.
End Fm.
