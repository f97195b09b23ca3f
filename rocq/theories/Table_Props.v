(** C78: an indexed set with a ChunkStore and a ChunkMatrixStore filled by its entries is a
    table of rows by key.  [K] is any key type whose equality function is equality; [A] the
    type of the column, [B] that of the fields; the chunk sizes are [2^kc] and [2^km], [nf]
    the number of fields, [R] the most keys held at a time. *)
From Verif Require Import JBase JLemmas JHist Num_Model Types_Model Store_Model Store_Proofs
  Hash_Model Hash_Spec Hash_Proofs Hash_Props Bi_Model Bi_Proofs App_Model Table_Model Table_Spec Table_Proofs.

Section Props.
  Context {K A B : Type} `{Countable K}.
  Variables (dfltK : K) (dfltA : A) (dfltB : B).
  Variables (hashf : Z -> K -> Z) (eqf : Z -> K -> K -> bool).
  Notation new := (new_table dfltK dfltA dfltB).
  Notation rstep := (rstep dfltK dfltA dfltB hashf eqf).
  Notation answers := (answers dfltA dfltB).

  (** The sizes the three constructors are given. *)
  Definition sizes (cap : Z) (l : lf) (ci kc mi km nf : Z) : Prop :=
    1 <= cap <= MAX_CAPACITY /\ lf_bad l = false /\ lf_dense cap l = true /\
    0 <= kc <= 30 /\ - 2 ^ kc < ci <= 2 ^ 31 - 2 ^ kc /\
    1 <= km <= 30 /\ 1 <= nf /\ 1 <= mi /\ mi * nf <= 2 ^ 31 - 2 ^ km.
  (** The number of keys the table is used for. *)
  Definition room (R km nf : Z) : Prop := 0 <= R <= MAX_CAPACITY /\ R * nf <= 2 ^ 31 - 2 ^ km.

  Theorem C78_constructor : forall cap l ci kc mi km nf, sizes cap l ci kc mi km nf ->
    exists s, new cap l ci (2 ^ kc) mi (2 ^ km) nf = Ok s.
  Proof.
    intros cap l ci kc mi km nf (Hc & Hl & _ & Hkc & Hci & Hkm & Hnf & Hm1 & Hm).
    destruct (C30_constructor dfltK tt false hashf eqf (fun _ => True) cap l Hc Hl) as (s & Es & _).
    destruct (new_SR dfltA kc ci Hkc Hci) as (c & Ec & _). destruct (new_MR dfltB km nf mi Hkm Hnf Hm1 Hm) as (q & Em & _).
    exists (mkTable s c q). unfold new_table. rewrite Es. cbn [rbind]. rewrite Ec. cbn [rbind]. by rewrite Em.
  Qed.
  (** Every call answers as the rows written so far tell, and no call fails: row numbers stay
      below the most keys held at a time, belong to one key and stay with it; a cell reads as
      last written since its key was added, and as the default if it never was and no row was
      ever taken away. *)
  Theorem C78_rows : forall cap l ci kc mi km nf R s0 h s o r s', (forall q a b, eqf q a b = true <-> a = b) ->
    sizes cap l ci kc mi km nf -> room R km nf -> new cap l ci (2 ^ kc) mi (2 ^ km) nf = Ok s0 ->
    hist rstep s0 h s -> all_fit R ∅ h -> fits R (rows h) o -> rstep o s = (r, s') -> answers R nf (fresh h) (rows h) o r.
  Proof.
    intros cap l ci kc mi km nf R s0 h s o r s' Leib (Hc & Hl & Hd & Hkc & Hci & Hkm & Hnf & Hm1 & Hm) [HR HRn] E Hh F Hf Ho.
    pose proof (tinv_new dfltK dfltA dfltB hashf eqf R kc km nf Hkc Hkm Hnf HR cap l ci mi s0 E Hd Hci Hm1 Hm) as I.
    destruct (hist_spec dfltK dfltA dfltB hashf eqf Leib R kc km nf Hkc Hkm Hnf HR HRn _ _ _ Hh _ _ _ _ _ I F) as (a & f & g & I').
    by apply (call_spec dfltK dfltA dfltB hashf eqf Leib R kc km nf Hkc Hkm Hnf HR HRn _ _ _ _ _ _ _ _ _ I' Hf Ho).
  Qed.
  (** The row of a removed key is the one the next new key is given, and it still holds what
      was written under the removed key. *)
  Theorem C78_reuse : forall cap l ci kc mi km nf R s0 h s k w r1 s1 k' r2 s2, (forall q a b, eqf q a b = true <-> a = b) ->
    sizes cap l ci kc mi km nf -> room R km nf -> new cap l ci (2 ^ kc) mi (2 ^ km) nf = Ok s0 ->
    hist rstep s0 h s -> all_fit R ∅ h -> rows h !! k = Some w -> rows h !! k' = None ->
    rstep (RRemove k) s = (r1, s1) -> rstep (RAdd k') s1 = (r2, s2) ->
    r2 = r1 /\ (forall x, col w = Some x -> (rstep (RGet k') s2).1 = Ok (RA (Some x))) /\
    forall i x, 0 <= i < nf -> fields w !! i = Some x -> (rstep (RGetField k' i) s2).1 = Ok (RB (Some x)).
  Proof.
    intros cap l ci kc mi km nf R s0 h s k w r1 s1 k' r2 s2 Leib (Hc & Hl & Hd & Hkc & Hci & Hkm & Hnf & Hm1 & Hm) [HR HRn] E Hh F.
    pose proof (tinv_new dfltK dfltA dfltB hashf eqf R kc km nf Hkc Hkm Hnf HR cap l ci mi s0 E Hd Hci Hm1 Hm) as I.
    destruct (hist_spec dfltK dfltA dfltB hashf eqf Leib R kc km nf Hkc Hkm Hnf HR HRn _ _ _ Hh _ _ _ _ _ I F) as (a & f & g & I').
    exact (reuse_spec dfltK dfltA dfltB hashf eqf Leib R kc km nf Hkc Hkm Hnf HR _ _ _ _ _ _ _ _ _ _ _ _ _ I').
  Qed.
End Props.

(** The keys of the library whose equality functions are equality: long (and the other
    integral types in the same way) and String. *)
Lemma leib_keys :
  (forall q a b, long_eq q a b = true <-> a = b) /\ (forall q a b, str_eq q a b = true <-> a = b).
Proof.
  split; intros q a b; [apply Z.eqb_eq|]. unfold str_eq, eqString. by rewrite bool_decide_eq_true.
Qed.

(** ** A concrete table: long keys, chunks of 2, 3 fields, at most 4 keys. *)
Notation xnew := (new_table (A:=Z) (B:=Z) 0 0 0).
Notation xstep := (rstep (A:=Z) (B:=Z) 0 0 0 long_hash long_eq).
Definition xops : list (rop Z Z Z) :=
  [RPut 100 7; RPutField 100 1 5; RPut 200 8; RAdd 300; RPutField 300 3 1; RGet 300; RGetField 100 1; RGetField 100 0;
   RScan; RRemove 100; RPutField 400 0 9; RGet 400; RGetField 400 1; RSize; RGet 100; RRemove 100; RPut 200 88; RAdd 500; RScan].
#[local] Instance row_dec : EqDecision (row Z Z).
Proof. solve_decision. Defined.
Example table_case : sizes 2 (LF 3 2) 0 1 1 1 3 /\ room 4 1 3 /\ exists s0 s,
  xnew 2 (LF 3 2) 0 (2 ^ 1) 1 (2 ^ 1) 3 = Ok s0 /\
  (run xstep xops s0).1 =
    [Ok (RRow 0); Ok (RRow 0); Ok (RRow 1); Ok (RRow 2); Exn RangeCheck; Ok (RA (Some 0)); Ok (RB (Some 5)); Ok (RB (Some 0));
     Ok (RL [(300, 0); (200, 8); (100, 7)]); Ok (RRow 0); Ok (RRow 0); Ok (RA (Some 7)); Ok (RB (Some 5)); Ok (RN 3); Ok (RA None); Ok (RRow (-1));
     Ok (RRow 1); Ok (RRow 3); Ok (RL [(200, 88); (400, 7); (500, 0); (300, 0)])] /\
  hist xstep s0 (zip xops (run xstep xops s0).1) s /\ all_fit 4 ∅ (zip xops (run xstep xops s0).1) /\
  rows (zip xops (run xstep xops s0).1) =
    {[200 := mkRow (Some 1) (Some 88) ∅; 300 := mkRow (Some 2) None ∅; 400 := mkRow (Some 0) None {[0 := 9]}; 500 := mkRow (Some 3) None ∅]}.
Proof.
  split; [unfold sizes, MAX_CAPACITY; vm_compute; repeat split; discriminate|].
  split; [unfold room, MAX_CAPACITY; vm_compute; repeat split; discriminate|].
  destruct (xnew 2 (LF 3 2) 0 (2 ^ 1) 1 (2 ^ 1) 3) as [s0| |] eqn:E; [|vm_compute in E; discriminate E..].
  exists s0. vm_compute in E. injection E as <-.
  eexists. split; [reflexivity|]. match goal with |- ?P /\ _ => assert P as -> by (vm_compute; reflexivity) end. split; [reflexivity|].
  split; [|split].
  - eapply run_hist; [vm_compute; reflexivity| |reflexivity]. repeat constructor; discriminate.
  - cbn [all_fit zip zip_with xops fits fst]. repeat match goal with |- _ /\ _ => split end; try exact Logic.I;
      first [right; apply (bool_decide_unpack _); vm_compute; exact Logic.I|left; apply (bool_decide_unpack _); vm_compute; exact Logic.I].
  - apply (bool_decide_unpack _). vm_compute. exact Logic.I.
Qed.

Print Assumptions C78_constructor.
Print Assumptions C78_rows.
Print Assumptions C78_reuse.
