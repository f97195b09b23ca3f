(** Consistent functions without a state: the collection does what Hash_Model.v says. *)
From Verif Require Import JBase JLemmas Num_Model Hash_Model HashC_Model.

Section Agree.
  Context {K V W : Type}.
  Variable dfltK : K.
  Variable dfltV : V.
  Variable ismap : bool.
  Variable hashf : Z -> K -> Z.
  Variable eqf : Z -> K -> K -> bool.
  Notation obs := (obs K V W).
  Definition pure_code : Z -> K -> M W Z := fun h k => ret (hashf h k).
  Definition pure_eq : Z -> K -> K -> M W bool := fun q a b => ret (eqf q a b).

  Definition sim {A} (m : M (hash K V) A) (m' : M obs A) : Prop :=
    forall s, exists lg, m' s = ((m (hs s)).1, mkObs (m (hs s)).2 (wd s) lg).
  Lemma sim_bind {A B} (m : M _ A) m' (k : A -> M _ B) k' : sim m m' -> (forall x, sim (k x) (k' x)) -> sim (bind m k) (bind m' k').
  Proof.
    intros Hm Hk s. destruct (Hm s) as [lg E]. unfold bind. rewrite E. destruct (m (hs s)) as [[x|x|] h]; cbn; eauto.
    destruct (Hk x (mkObs h (wd s) lg)) as [lg' E']. eauto.
  Qed.
  Lemma sim_on {A} (m : M _ A) : sim m (on m).
  Proof. intros s. unfold on, zoom. destruct (m (hs s)). cbn. eauto. Qed.
  Lemma sim_ret {A} (x : A) : sim (ret x) (ret x).
  Proof. intros s. exists (log s). by destruct s. Qed.
  Lemma sim_throw {A} x : sim (throw x : M _ A) (throw x).
  Proof. intros s. exists (log s). by destruct s. Qed.
  Lemma sim_loops {A} : sim (loops : M _ A) loops.
  Proof. intros s. exists (log s). by destruct s. Qed.
  Lemma sim_rdl {A} (l : list A) i : sim (rdl l i) (rdl l i).
  Proof. intros s. exists (log s). unfold rdl. destruct (aget l i); by destruct s. Qed.
  Lemma sim_head key : sim (computeHead hashf key) (computeHeadC pure_code key).
  Proof. intros s. unfold computeHead, computeHeadC, call_code, pure_code, on, zoom, bind, gets, ret. cbn. eauto. Qed.
  Lemma sim_equal a b (k : bool -> M _ Z) k' : (forall q, sim (k q) (k' q)) ->
    sim (let! q := gets equalFunc in k (eqf q a b)) (let! q := call_equal pure_eq a b in k' q).
  Proof.
    intros H s. unfold call_equal, pure_eq, bind, gets, ret. cbn.
    destruct (H (eqf (equalFunc (hs s)) a b) (mkObs (hs s) (wd s) (log s ++ [Equal a b (Ok (eqf (equalFunc (hs s)) a b))]))) as [lg E]. eauto.
  Qed.
  Lemma sim_if {A} (b : bool) (m1 m2 : M _ A) m1' m2' : sim m1 m1' -> sim m2 m2' -> sim (if b then m1 else m2) (if b then m1' else m2').
  Proof. by destruct b. Qed.
  Lemma sim_ext {A} (m m1 : M _ A) m' : (forall s, m s = m1 s) -> sim m1 m' -> sim m m'.
  Proof. intros E H s. rewrite E. apply H. Qed.

  Lemma sim_lookup_loop fuel key : forall e, sim (lookup_loop eqf fuel key e) (lookupC_loop pure_eq fuel key e).
  Proof.
    induction fuel as [|fuel IH]; intros e; cbn [lookup_loop lookupC_loop]; [apply sim_loops|]. apply sim_if; [apply sim_ret|].
    apply sim_bind; [apply sim_on|]. intros k. apply (sim_equal key k (fun q => if q then ret e else _)). intros q. apply sim_if; [apply sim_ret|].
    apply sim_bind; [apply sim_on|]. apply IH.
  Qed.
  Lemma sim_lookup key : sim (lookupEntry hashf eqf key) (lookupEntryC pure_code pure_eq key).
  Proof.
    apply sim_bind; [apply sim_head|]. intros h. apply sim_bind; [apply sim_on|]. intros e. apply sim_bind; [apply sim_on|]. intros n. apply sim_lookup_loop.
  Qed.
  Lemma sim_remove_loop fuel head key free : forall prev e,
    sim (remove_loop dfltK dfltV ismap eqf fuel head key free prev e) (removeC_loop dfltK dfltV ismap pure_eq fuel head key free prev e).
  Proof.
    induction fuel as [|fuel IH]; intros prev e; cbn [remove_loop removeC_loop]; [apply sim_loops|]. apply sim_if; [apply sim_ret|].
    apply sim_bind; [apply sim_on|]. intros k.
    apply (sim_equal key k (fun q => if negb q then _ else remove_found dfltK dfltV ismap head prev e free)). intros q.
    apply sim_if; [|apply sim_on]. apply sim_bind; [apply sim_on|]. intros n. apply IH.
  Qed.
  Lemma sim_remove2 key free : sim (h_remove2 dfltK dfltV ismap hashf eqf key free) (c_remove2 dfltK dfltV ismap pure_code pure_eq key free).
  Proof.
    apply sim_bind; [apply sim_head|]. intros h. apply sim_bind; [apply sim_on|]. intros e. apply sim_if; [apply sim_ret|].
    apply sim_bind; [apply sim_on|]. intros n. apply sim_remove_loop.
  Qed.
  Lemma sim_rehash_chain fuel oldN oldK : forall e, sim (rehash_chain hashf fuel oldN oldK e) (rehashC_chain pure_code fuel oldN oldK e).
  Proof.
    induction fuel as [|fuel IH]; intros e; cbn [rehash_chain rehashC_chain]; [apply sim_loops|]. apply sim_if; [apply sim_ret|].
    apply sim_bind; [apply sim_rdl|]. intros k. apply sim_bind; [apply sim_head|]. intros h. apply sim_bind; [apply sim_on|]. intros _.
    apply sim_bind; [apply sim_on|]. intros _. apply sim_bind; [apply sim_rdl|]. intros n. apply IH.
  Qed.
  Lemma sim_rehash_heads n oldH oldN oldK : forall i, sim (rehash_heads hashf n oldH oldN oldK i) (rehashC_heads pure_code n oldH oldN oldK i).
  Proof.
    induction n as [|n IH]; intros i; cbn [rehash_heads rehashC_heads]; [apply sim_ret|].
    apply sim_bind; [apply sim_rdl|]. intros e. apply sim_bind; [apply sim_rehash_chain|]. intros _. apply IH.
  Qed.
  Lemma sim_rehash : sim (rehash dfltK dfltV ismap hashf) (rehashC dfltK dfltV ismap pure_code).
  Proof.
    eapply (sim_ext _ (let! oldHeads := gets heads in let! oldNexts := gets nexts in let! oldKeys := gets keys in
      let! len := rehash_prepare dfltK dfltV ismap oldHeads in
      do! rehash_heads hashf (Z.to_nat len) oldHeads oldNexts oldKeys 0 ; touch)).
    - intros s. unfold rehash, rehash_prepare, bind, gets.
      destruct (h_calculateNewCapacity s) as [[[]| |] s1]; try done.
      unfold bind, of_res, ret, throw, loops, gets, modify. destruct (array_create_with _ _ _ _); try done.
      destruct (growKeys _ _ _) as [[[]| |] s2]; try done. destruct (growValues _ _ _ _) as [[[]| |] s3]; done.
    - apply sim_bind; [apply sim_on|]. intros oh. apply sim_bind; [apply sim_on|]. intros on'. apply sim_bind; [apply sim_on|]. intros ok.
      apply sim_bind; [apply sim_on|]. intros len. apply sim_bind; [apply sim_rehash_heads|]. intros _. apply sim_on.
  Qed.
  Lemma sim_base_add key : sim (base_add dfltK dfltV ismap hashf eqf key) (c_base_add dfltK dfltV ismap pure_code pure_eq key).
  Proof.
    apply sim_bind; [apply sim_head|]. intros h. apply sim_bind; [apply sim_on|]. intros e. apply sim_bind; [apply sim_on|]. intros n.
    apply sim_bind; [apply sim_lookup_loop|]. intros f. apply sim_if; [apply sim_ret|]. apply sim_bind; [apply sim_on|]. intros e'.
    apply sim_bind; [apply sim_on|]. intros thr. apply sim_bind.
    - apply sim_if; [|apply sim_ret]. apply sim_bind; [apply sim_rehash|]. intros _. apply sim_head.
    - intros h'. apply (sim_on (link_new h' e' key)).
  Qed.
  Lemma sim_add key : sim (h_add dfltK dfltV ismap hashf eqf key) (c_add dfltK dfltV ismap pure_code pure_eq key).
  Proof.
    apply sim_bind; [apply sim_on|]. intros o. apply sim_bind; [apply sim_base_add|]. intros e. apply sim_bind; [apply sim_on|]. intros n.
    apply sim_bind; [|intros _; apply sim_ret]. apply sim_if; [apply sim_on|apply sim_ret].
  Qed.
  Lemma sim_out {A B} (f : A -> B) m m' : sim m m' -> sim (out_map f m) (out_map f m').
  Proof. intros H. apply sim_bind; [done|]. intros x. apply sim_ret. Qed.

  Theorem cstep_agrees (o : hop K V) : sim (hstep dfltK dfltV ismap hashf eqf o) (cstep dfltK dfltV ismap pure_code pure_eq o).
  Proof.
    destruct o; cbn [cstep]; try exact (sim_on (hstep dfltK dfltV ismap hashf eqf _)); apply sim_out.
    - apply sim_add.
    - apply sim_bind; [apply sim_add|]. intros e. apply sim_bind; [apply sim_on|]. intros _. apply sim_ret.
    - apply sim_remove2.
    - apply sim_bind; [apply sim_on|]. intros k. apply sim_bind; [apply sim_remove2|]. intros _. apply sim_ret.
    - apply sim_lookup.
    - apply sim_lookup.
    - apply sim_bind; [apply sim_lookup|]. intros e. apply sim_if; [apply sim_throw|apply sim_on].
    - apply sim_bind; [apply sim_lookup|]. intros e. apply sim_if; [apply sim_ret|apply sim_on].
  Qed.
End Agree.
