(** How calls move the modification counter, for C36. *)
From Verif Require Import JBase JLemmas Num_Model Hash_Model.

Lemma i32_moved z : exists q, i32 z = z + q * 4294967296.
Proof. apply i32_cong. Qed.

Section Mods.
  Context {K V : Type}.
  Context {dfltK : K} {dfltV : V} {ismap : bool} {hashf : Z -> K -> Z} {eqf : Z -> K -> K -> bool}.
  Notation hash := (hash K V).
  Notation hit := (hit K V).

  (** The counter moved on by [d], modulo 2^32. *)
  Definition moved (d : Z) (s s' : hash) : Prop :=
    exists q, modificationCount s' = modificationCount s + d + q * 4294967296.
  Lemma moved_0 s : moved 0 s s.
  Proof. exists 0. lia. Qed.
  Lemma moved_trans d1 d2 s1 s2 s3 : moved d1 s1 s2 -> moved d2 s2 s3 -> moved (d1 + d2) s1 s3.
  Proof. intros [q1 E1] [q2 E2]. exists (q1 + q2). lia. Qed.
  Lemma moved_ne d s s' : moved d s s' -> 0 < d < 4294967296 -> modificationCount s' <> modificationCount s.
  Proof. intros [q E] H. lia. Qed.
  Lemma moved_touch s : moved 1 s (s <| modificationCount := i32 (modificationCount s + 1) |>).
  Proof. destruct (i32_moved (modificationCount s + 1)) as [q E]. exists q. cbn. lia. Qed.

  (** Neither the counter nor the size changes. *)
  Definition quiet {A} (m : M hash A) : Prop := forall s r s', m s = (r, s') ->
    modificationCount s' = modificationCount s /\ hsize s' = hsize s.
  Lemma quiet_bind {A B} (m : M hash A) (f : A -> M hash B) : quiet m -> (forall x, quiet (f x)) -> quiet (bind m f).
  Proof.
    intros Hm Hf s r s' E. unfold bind in E. destruct (m s) as [[x|x|] s1] eqn:E1; destruct (Hm _ _ _ E1) as [H1 H2].
    - destruct (Hf _ _ _ _ E). split; congruence.
    - by simplify_eq.
    - by simplify_eq.
  Qed.
  Lemma quiet_ret {A} (x : A) : quiet (ret x). Proof. intros s r s' [= <- <-]. done. Qed.
  Lemma quiet_throw {A} x : quiet (A:=A) (throw x). Proof. intros s r s' [= <- <-]. done. Qed.
  Lemma quiet_loops {A} : quiet (A:=A) loops. Proof. intros s r s' [= <- <-]. done. Qed.
  Lemma quiet_gets {A} (g : hash -> A) : quiet (gets g). Proof. intros s r s' [= <- <-]. done. Qed.
  Lemma quiet_of_res {A} (x : res A) : quiet (of_res x). Proof. intros s r s' [= <- <-]. done. Qed.
  Lemma quiet_rd {A} (g : hash -> list A) i : quiet (rd g i).
  Proof. intros s r s' E. unfold rd in E. destruct (aget (g s) i); by simplify_eq. Qed.
  Lemma quiet_rdl {A} (l : list A) i : quiet (rdl l i).
  Proof. intros s r s' E. unfold rdl, ret, throw in E. destruct (aget l i); by simplify_eq. Qed.
  Lemma quiet_wr {A} (g : hash -> list A) p i (x : A) :
    (forall l s, modificationCount (p l s) = modificationCount s /\ hsize (p l s) = hsize s) -> quiet (wr g p i x).
  Proof. intros H s r s' E. unfold wr in E. destruct (aset (g s) i x); simplify_eq; [apply H|done]. Qed.
  Lemma quiet_modify (f : hash -> hash) :
    (forall s, modificationCount (f s) = modificationCount s /\ hsize (f s) = hsize s) -> quiet (modify f).
  Proof. intros H s r s' [= <- <-]. apply H. Qed.
End Mods.
Ltac quiet1 :=
  match goal with
  | |- quiet (bind _ _) => apply quiet_bind; [|intros ?]
  | |- quiet (ret _) => apply quiet_ret
  | |- quiet (throw _) => apply quiet_throw
  | |- quiet loops => apply quiet_loops
  | |- quiet (gets _) => apply quiet_gets
  | |- quiet (of_res _) => apply quiet_of_res
  | |- quiet (rd _ _) => apply quiet_rd
  | |- quiet (rdl _ _) => apply quiet_rdl
  | |- quiet (wr _ _ _ _) => apply quiet_wr; done
  | |- quiet (modify _) => apply quiet_modify; done
  | |- quiet (if ?b then _ else _) => destruct b
  | |- quiet (match ?b with _ => _ end) => destruct b
  | _ => fail
  end.
Ltac quiet := repeat (quiet1 || assumption || (progress (unfold wr_heads, wr_nexts, wr_keys, wr_values, removeValue, unlink, computeHead))).

Section Calls.
  Context {K V : Type}.
  Context {dfltK : K} {dfltV : V} {ismap : bool} {hashf : Z -> K -> Z} {eqf : Z -> K -> K -> bool}.
  Notation hash := (hash K V).
  Notation hit := (hit K V).

  Lemma lookup_loop_quiet fuel key : forall e, quiet (K:=K) (V:=V) (lookup_loop eqf fuel key e).
  Proof. induction fuel as [|fuel IH]; intros e; cbn [lookup_loop]; quiet. apply IH. Qed.
  Lemma lookupEntry_quiet key : quiet (K:=K) (V:=V) (lookupEntry hashf eqf key).
  Proof. unfold lookupEntry. quiet. apply lookup_loop_quiet. Qed.
  Lemma free_quiet e : quiet (freeReservedEntry dfltK dfltV ismap e).
  Proof. unfold freeReservedEntry. quiet. Qed.
  Lemma getHead_quiet fuel : forall e, quiet (K:=K) (V:=V) (getHead_loop fuel e).
  Proof. induction fuel as [|fuel IH]; intros e; cbn [getHead_loop]; quiet. apply IH. Qed.
  Lemma allocate_quiet : quiet (K:=K) (V:=V) allocateNewEntry.
  Proof. unfold allocateNewEntry. quiet. Qed.
  Lemma register_quiet h e : quiet (K:=K) (V:=V) (registerNewEntryForHead h e).
  Proof. unfold registerNewEntryForHead. quiet. Qed.
  Lemma updateMaxHead_quiet h : quiet (K:=K) (V:=V) (updateMaxHead h).
  Proof. unfold updateMaxHead. quiet. Qed.
  Lemma newCapacity_quiet : quiet (K:=K) (V:=V) h_calculateNewCapacity.
  Proof. unfold h_calculateNewCapacity. quiet. Qed.
  Lemma rehash_chain_quiet n oldN oldK : forall e, quiet (V:=V) (rehash_chain hashf n oldN oldK e).
  Proof.
    induction n as [|n IH]; intros e; cbn [rehash_chain]; quiet; try apply IH; [apply register_quiet|apply updateMaxHead_quiet].
  Qed.
  Lemma rehash_heads_quiet n oldH oldN oldK : forall i, quiet (V:=V) (rehash_heads hashf n oldH oldN oldK i).
  Proof. induction n as [|n IH]; intros i; cbn [rehash_heads]; quiet; [apply rehash_chain_quiet|apply IH]. Qed.

  (** The counter moves by 1 with every key removed. *)
  Definition drops {A} (m : M hash A) : Prop := forall s r s', m s = (r, s') ->
    hsize s' <= hsize s /\ moved (hsize s - hsize s') s s'.
  Lemma drops_quiet {A} (m : M hash A) : quiet m -> drops m.
  Proof. intros Q s r s' E. destruct (Q _ _ _ E) as [H1 H2]. split; [lia|]. exists 0. lia. Qed.
  Lemma drops_bind {A B} (m : M hash A) (f : A -> M hash B) : drops m -> (forall x, drops (f x)) -> drops (bind m f).
  Proof.
    intros Hm Hf s r s' E. unfold bind in E. destruct (m s) as [[x|x|] s1] eqn:E1; destruct (Hm _ _ _ E1) as [H1 H2].
    - destruct (Hf _ _ _ _ E) as [H3 H4]. split; [lia|]. replace (hsize s - hsize s') with ((hsize s - hsize s1) + (hsize s1 - hsize s')) by lia.
      by eapply moved_trans.
    - by simplify_eq.
    - by simplify_eq.
  Qed.
  Lemma drops_one {A} (k : M hash A) : quiet k -> drops (do! modify (fun s => s <| hsize := hsize s - 1 |>) ; do! touch ; k).
  Proof.
    intros Q s r s' E. unfold touch in E. rewrite !bind_modify in E. destruct (Q _ _ _ E) as [H1 H2]. cbn in H1, H2. split; [lia|].
    replace (hsize s - hsize s') with 1 by lia. destruct (moved_touch s) as [q Hq]. exists q. cbn in Hq. lia.
  Qed.
  Lemma drops_one' : drops (do! modify (fun s => s <| hsize := hsize s - 1 |>) ; touch).
  Proof.
    intros s r s' E. eapply (drops_one (ret tt)); [apply quiet_ret|]. rewrite bind_modify in *. unfold touch in *. rewrite bind_modify. exact E.
  Qed.
  Lemma removeAt_loop_drops fuel h en : forall p e, drops (removeAt_loop dfltK dfltV ismap fuel h en p e).
  Proof.
    induction fuel as [|fuel IH]; intros p e; cbn [removeAt_loop]; [apply drops_quiet; quiet|].
    destruct (e <? 0); [apply drops_quiet; quiet|]. destruct (negb (e =? en)).
    - apply drops_bind; [apply drops_quiet; quiet|]. intros n. apply IH.
    - apply drops_bind; [apply drops_quiet; quiet|]. intros n. apply drops_bind; [apply drops_quiet; quiet|]. intros _.
      apply drops_bind; [apply drops_quiet, free_quiet|]. intros _. apply drops_one'.
  Qed.
  Lemma removeAt_drops e : drops (h_removeAt dfltK dfltV ismap e).
  Proof.
    unfold h_removeAt. apply drops_bind; [apply drops_quiet; quiet|]. intros f. apply drops_bind; [apply drops_quiet, getHead_quiet|].
    intros h. apply drops_bind; [apply drops_quiet; quiet|]. intros x. apply removeAt_loop_drops.
  Qed.
  Lemma remove_loop_drops fuel h key free : forall p e, drops (remove_loop dfltK dfltV ismap eqf fuel h key free p e).
  Proof.
    induction fuel as [|fuel IH]; intros p e; cbn [remove_loop]; [apply drops_quiet; quiet|].
    destruct (e <? 0); [apply drops_quiet; quiet|]. apply drops_bind; [apply drops_quiet; quiet|]. intros k.
    apply drops_bind; [apply drops_quiet; quiet|]. intros q. destruct (negb (eqf q key k)).
    - apply drops_bind; [apply drops_quiet; quiet|]. intros n. apply IH.
    - apply drops_bind; [apply drops_quiet; quiet|]. intros n. apply drops_bind; [apply drops_quiet; quiet|]. intros _.
      apply drops_bind; [apply drops_quiet; destruct free; [apply free_quiet|quiet]|]. intros _. apply drops_one. quiet.
  Qed.
  Lemma remove2_drops key free : drops (h_remove2 dfltK dfltV ismap hashf eqf key free).
  Proof.
    unfold h_remove2. apply drops_bind; [apply drops_quiet; quiet|]. intros h. apply drops_bind; [apply drops_quiet; quiet|]. intros x.
    destruct (x <? 0); [apply drops_quiet; quiet|]. apply drops_bind; [apply drops_quiet; quiet|]. intros f. apply remove_loop_drops.
  Qed.
  Lemma reserve_drops e : drops (removeAtAndReserve dfltK dfltV ismap hashf eqf e).
  Proof.
    unfold removeAtAndReserve. apply drops_bind; [apply drops_quiet; quiet|]. intros k. apply drops_bind; [apply remove2_drops|].
    intros _. apply drops_quiet. quiet.
  Qed.
  Lemma visit_chain_drops {A} (f : Z -> M hash A) : (forall e, drops (f e)) -> forall n e, drops (visit_chain n f e).
  Proof.
    intros Hf n. induction n as [|n IH]; intros e; cbn [visit_chain]; [apply drops_quiet; quiet|].
    destruct (e <? 0); [apply drops_quiet; quiet|]. apply drops_bind; [apply drops_quiet; quiet|]. intros nx.
    apply drops_bind; [apply Hf|]. intros x. apply drops_bind; [apply IH|]. intros l. apply drops_quiet. quiet.
  Qed.
  Lemma visit_drops {A} (f : Z -> M hash A) : (forall e, drops (f e)) -> drops (visit f).
  Proof.
    intros Hf. assert (forall n h i m, drops (visit_heads n f h i m)) as Hv.
    { induction n as [|n IH]; intros h i m; cbn [visit_heads]; [apply drops_quiet; quiet|].
      apply drops_bind; [apply drops_quiet; quiet|]. intros len. destruct (_ && _); [|apply drops_quiet; quiet].
      apply drops_bind; [apply drops_quiet; quiet|]. intros e. apply drops_bind; [apply drops_quiet; quiet|]. intros c.
      apply drops_bind; [by apply visit_chain_drops|]. intros l. apply drops_bind; [apply IH|]. intros l'. apply drops_quiet. quiet. }
    unfold visit. apply drops_bind; [apply drops_quiet; quiet|]. intros n. destruct (n =? 0); [apply drops_quiet; quiet|].
    apply drops_bind; [apply drops_quiet; quiet|]. intros fuel. apply Hv.
  Qed.

  (** The iterator. *)
  Definition drops_it {A} (m : M hit A) : Prop := forall st x st', m st = (Ok x, st') ->
    hsize (tb st') <= hsize (tb st) /\ moved (hsize (tb st) - hsize (tb st')) (tb st) (tb st').
  Definition quiet_it {A} (m : M hit A) : Prop := forall st x st', m st = (Ok x, st') ->
    modificationCount (tb st') = modificationCount (tb st) /\ hsize (tb st') = hsize (tb st).
  Lemma bind_Ok {S A B} (m : M S A) (f : A -> M S B) (s : S) y s' : bind m f s = (Ok y, s') ->
    exists x s1, m s = (Ok x, s1) /\ f x s1 = (Ok y, s').
  Proof. unfold bind. destruct (m s) as [[x|x|] s1]; [eauto|done|done]. Qed.
  Lemma quiet_it_bind {A B} (m : M hit A) (f : A -> M hit B) : quiet_it m -> (forall x, quiet_it (f x)) -> quiet_it (bind m f).
  Proof.
    intros Hm Hf s r s' E. apply bind_Ok in E as (x & s1 & E1 & E2). destruct (Hm _ _ _ E1). destruct (Hf _ _ _ _ E2). split; congruence.
  Qed.
  Lemma quiet_it_pure {A} (x : A) : quiet_it (ret x). Proof. intros s r s' [= <- <-]. done. Qed.
  Lemma quiet_it_gets {A} (g : hit -> A) : quiet_it (gets g). Proof. intros s r s' [= <- <-]. done. Qed.
  Lemma quiet_it_mod f : quiet_it (mod_it (K:=K) (V:=V) f). Proof. intros s r s' [= <- <-]. done. Qed.
  Lemma quiet_it_throw {A} x : quiet_it (A:=A) (throw x). Proof. intros s r s' [=]. Qed.
  Lemma quiet_it_loops {A} : quiet_it (A:=A) loops. Proof. intros s r s' [=]. Qed.
  Lemma quiet_it_tb {A} (m : M hash A) : quiet m -> quiet_it (on_tb m).
  Proof.
    intros Q st x st' E. unfold on_tb, zoom in E. destruct (m (tb st)) as [r t] eqn:Em. simplify_eq. cbn. eapply Q, Em.
  Qed.
  Ltac quieti := repeat
    match goal with
    | |- quiet_it (bind _ _) => apply quiet_it_bind; [|intros ?]
    | |- quiet_it (ret _) => apply quiet_it_pure
    | |- quiet_it (gets _) => apply quiet_it_gets
    | |- quiet_it (mod_it _) => apply quiet_it_mod
    | |- quiet_it (throw _) => apply quiet_it_throw
    | |- quiet_it loops => apply quiet_it_loops
    | |- quiet_it (on_tb _) => apply quiet_it_tb; solve [quiet]
    | |- quiet_it (if ?b then _ else _) => destruct b
    end.
  Lemma nextHead_quiet : quiet_it nextHead.
  Proof.
    assert (forall n, quiet_it (nextHead_loop (K:=K) (V:=V) n)) as H.
    { induction n as [|n IH]; cbn [nextHead_loop]; quieti. apply IH. }
    unfold nextHead. quieti. apply H.
  Qed.
  Lemma it_next_quiet : quiet_it it_next.
  Proof. unfold it_next, it_check, it_initialize. quieti; apply nextHead_quiet. Qed.
  Lemma it_remove_drops (st : hit) x st' : it_remove dfltV ismap st = (Ok x, st') ->
    hsize (tb st') = hsize (tb st) - 1 /\ moved 1 (tb st) (tb st').
  Proof.
    unfold it_remove. intros E.
    apply bind_Ok in E as (y1 & s1 & E1 & E). assert (quiet_it (it_check (K:=K) (V:=V))) as Q1 by (unfold it_check; quieti).
    destruct (Q1 _ _ _ E1) as [A1 B1]. rewrite bind_gets in E. destruct (isRemoved (it s1)); [discriminate E|].
    rewrite bind_gets in E. apply bind_Ok in E as (y2 & s2 & E2 & E).
    assert (modificationCount (tb s2) = modificationCount (tb s1) /\ hsize (tb s2) = hsize (tb s1)) as [A2 B2].
    { destruct (negb (initialized (it s1))); [|injection E2 as <- <-; done].
      assert (quiet_it (it_initialize (K:=K) (V:=V))) as Q2 by (unfold it_initialize; quieti; apply nextHead_quiet).
      by destruct (Q2 _ _ _ E2). }
    rewrite bind_gets in E. apply bind_Ok in E as (nx & s3 & E3 & E).
    assert (quiet_it (on_tb (rd (nexts (K:=K) (V:=V)) (ientry (it s2))))) as Q3 by quieti. destruct (Q3 _ _ _ E3) as [A3 B3].
    apply bind_Ok in E as (y4 & s4 & E4 & E). destruct (quiet_it_mod _ _ _ _ E4) as [A4 B4].
    rewrite bind_gets in E. apply bind_Ok in E as (y5 & s5 & E5 & E).
    assert (quiet_it (on_tb (unlink (K:=K) (V:=V) (ihead (it s4)) (iprev (it s4)) nx))) as Q5 by quieti. destruct (Q5 _ _ _ E5) as [A5 B5].
    apply bind_Ok in E as (y6 & s6 & E6 & E).
    assert (modificationCount (tb s6) = modificationCount (tb s5) /\ hsize (tb s6) = hsize (tb s5) - 1) as [A6 B6].
    { unfold on_tb, zoom in E6. rewrite bind_gets in E6.
      match type of E6 with (let '(_, _) := ?m ?t in _) = _ => destruct (m t) as [r t'] eqn:Em end. simplify_eq. cbn.
      apply bind_Ok in Em as (y & t1 & Ew & Em). injection Em as _ <-. cbn.
      assert (quiet (wr_nexts (K:=K) (V:=V) (ientry (it s2)) (freeList (tb s5)))) as Qw by quiet. destruct (Qw _ _ _ Ew) as [-> ->]. done. }
    apply bind_Ok in E as (y7 & s7 & E7 & E).
    assert (quiet_it (on_tb (removeValue (K:=K) dfltV ismap (ientry (it s2))))) as Q7 by quieti. destruct (Q7 _ _ _ E7) as [A7 B7].
    apply bind_Ok in E as (y8 & s8 & E8 & E). destruct (quiet_it_mod _ _ _ _ E8) as [A8 B8].
    injection E as _ <-. cbn. split; [congruence|]. destruct (moved_touch (tb s8)) as [q Hq]. exists q. cbn in Hq. cbn. lia.
  Qed.
  Lemma iterate_loop_drops n sel : drops_it (iterate_loop dfltV ismap (K:=K) n sel).
  Proof.
    induction n as [|n IH]; intros st x st' E; cbn [iterate_loop] in E.
    - injection E as <- <-. split; [lia|]. rewrite Z.sub_diag. apply moved_0.
    - apply bind_Ok in E as (b & s1 & E1 & E). destruct (it_next_quiet _ _ _ E1) as [A1 B1]. destruct b.
      2:{ injection E as <- <-. split; [lia|]. exists 0. lia. }
      unfold it_currentEntry in E. rewrite bind_gets in E. apply bind_Ok in E as (y & s2 & E2 & E).
      apply bind_Ok in E as (y' & s3 & E3 & E). injection E as _ <-. destruct (IH _ _ _ E3) as [H3 [q3 Q3]].
      destruct (sel (ientry (it s1))).
      + apply it_remove_drops in E2 as [B2 [q2 Q2]]. split; [lia|]. exists (q2 + q3). lia.
      + injection E2 as _ <-. split; [lia|]. exists q3. lia.
  Qed.
  Lemma iterate_drops n sel s x s' : iterate dfltV ismap (K:=K) n sel s = (Ok x, s') ->
    hsize s' <= hsize s /\ moved (hsize s - hsize s') s s'.
  Proof.
    unfold iterate, it_reset, mod_it. rewrite bind_bind, bind_gets, bind_modify. intros E.
    destruct (iterate_loop dfltV ismap n sel _) as [r st] eqn:El. injection E as -> <-.
    exact (iterate_loop_drops n sel _ _ _ El).
  Qed.

  (** add: by 1 with the new key, perhaps 1 more for the larger table. *)
  Definition grows (lo hi : Z) {A} (m : M hash A) : Prop := forall s r s', m s = (r, s') ->
    hsize s' = hsize s /\ exists d, moved d s s' /\ lo <= d <= hi.
  Lemma grows_quiet {A} (m : M hash A) : quiet m -> grows 0 0 m.
  Proof. intros Q s r s' E. destruct (Q _ _ _ E) as [H1 H2]. split; [done|]. exists 0. split; [exists 0; lia|lia]. Qed.
  Lemma grows_bind lo hi {A B} (m : M hash A) (f : A -> M hash B) : quiet m -> (forall x, grows lo hi (f x)) -> lo <= 0 <= hi -> grows lo hi (bind m f).
  Proof.
    intros Hm Hf H0 s r s' E. unfold bind in E. destruct (m s) as [[x|x|] s1] eqn:E1; destruct (Hm _ _ _ E1) as [H1 H2].
    - destruct (Hf _ _ _ _ E) as [H3 (d & [q Hq] & Hd)]. split; [congruence|]. exists d. split; [exists q; lia|done].
    - simplify_eq. split; [done|]. exists 0. split; [exists 0; lia|lia].
    - simplify_eq. split; [done|]. exists 0. split; [exists 0; lia|lia].
  Qed.
  Lemma grows_touch : grows 0 1 touch.
  Proof. intros s r s' [= <- <-]. split; [done|]. exists 1. split; [apply moved_touch|lia]. Qed.
  Lemma rehash_grows : grows 0 1 (rehash dfltK dfltV ismap hashf).
  Proof.
    unfold rehash. repeat (apply grows_bind; [|intros ?|lia]); try apply grows_touch; unfold growKeys, growValues; quiet;
      [apply newCapacity_quiet|apply rehash_heads_quiet].
  Qed.
  Lemma grows_then hi {A B} (m : M hash A) (f : A -> M hash B) : 0 <= hi -> grows 0 hi m -> (forall x, quiet (f x)) -> grows 0 hi (bind m f).
  Proof.
    intros H0 Hm Hf s r s' E. unfold bind in E. destruct (m s) as [[x|x|] s1] eqn:E1; destruct (Hm _ _ _ E1) as [H1 (d & [q Hq] & Hd)].
    - destruct (Hf _ _ _ _ E) as [H3 H4]. split; [congruence|]. exists d. split; [exists q; lia|done].
    - simplify_eq. split; [done|]. exists d. split; [exists q; lia|lia].
    - simplify_eq. split; [done|]. exists d. split; [exists q; lia|lia].
  Qed.
  Definition adds (hi : Z) {A} (m : M hash A) : Prop := forall s r s', m s = (r, s') ->
    0 <= hsize s' - hsize s <= 1 /\ exists d, moved d s s' /\ hsize s' - hsize s <= d <= hsize s' - hsize s + hi.
  Lemma adds_quiet hi {A} (m : M hash A) : 0 <= hi -> quiet m -> adds hi m.
  Proof. intros H0 Q s r s' E. destruct (Q _ _ _ E) as [H1 H2]. split; [lia|]. exists 0. split; [exists 0; lia|lia]. Qed.
  Lemma adds_bind hi {A B} (m : M hash A) (f : A -> M hash B) : 0 <= hi -> quiet m -> (forall x, adds hi (f x)) -> adds hi (bind m f).
  Proof.
    intros H0 Hm Hf s r s' E. unfold bind in E. destruct (m s) as [[x|x|] s1] eqn:E1; destruct (Hm _ _ _ E1) as [H1 H2].
    - destruct (Hf _ _ _ _ E) as [H3 (d & [q Hq] & Hd)]. split; [lia|]. exists d. split; [exists q; lia|lia].
    - simplify_eq. split; [lia|]. exists 0. split; [exists 0; lia|lia].
    - simplify_eq. split; [lia|]. exists 0. split; [exists 0; lia|lia].
  Qed.
  Lemma adds_grow {A B} (m : M hash A) (f : A -> M hash B) : grows 0 1 m -> (forall x, adds 0 (f x)) -> adds 1 (bind m f).
  Proof.
    intros Hm Hf s r s' E. unfold bind in E. destruct (m s) as [[x|x|] s1] eqn:E1; destruct (Hm _ _ _ E1) as [H1 (d1 & [q1 Hq1] & Hd1)].
    - destruct (Hf _ _ _ _ E) as [H3 (d & [q Hq] & Hd)]. split; [lia|]. exists (d1 + d). split; [exists (q1 + q); lia|lia].
    - simplify_eq. split; [lia|]. exists d1. split; [exists q1; lia|lia].
    - simplify_eq. split; [lia|]. exists d1. split; [exists q1; lia|lia].
  Qed.
  Lemma adds_then hi {A B} (m : M hash A) (f : A -> M hash B) : adds hi m -> (forall x, quiet (f x)) -> adds hi (bind m f).
  Proof.
    intros Hm Hf s r s' E. unfold bind in E. destruct (m s) as [[x|x|] s1] eqn:E1; destruct (Hm _ _ _ E1) as [H1 (d1 & [q1 Hq1] & Hd1)].
    - destruct (Hf _ _ _ _ E) as [H3 H4]. rewrite H4. split; [lia|]. exists d1. split; [exists q1; lia|lia].
    - simplify_eq. split; [lia|]. exists d1. split; [exists q1; lia|lia].
    - simplify_eq. split; [lia|]. exists d1. split; [exists q1; lia|lia].
  Qed.
  Lemma adds_one {A} (x : A) : adds 0 (do! modify (fun s => s <| hsize := hsize s + 1 |>) ; do! touch ; ret x).
  Proof.
    intros s r s' E. unfold touch in E. rewrite !bind_modify in E. injection E as _ <-. cbn. split; [lia|]. exists 1. split; [|lia].
    destruct (moved_touch s) as [q Hq]. exists q. cbn in *. lia.
  Qed.
  Lemma base_add_adds key : adds 1 (base_add dfltK dfltV ismap hashf eqf key).
  Proof.
    unfold base_add. apply adds_bind; [lia|quiet|]. intros h. apply adds_bind; [lia|quiet|]. intros e.
    apply adds_bind; [lia|quiet|]. intros fuel. apply adds_bind; [lia|apply lookup_loop_quiet|]. intros f.
    destruct (0 <=? f); [apply adds_quiet; [lia|quiet]|]. apply adds_bind; [lia|apply allocate_quiet|]. intros en.
    apply adds_bind; [lia|quiet|]. intros t. apply adds_grow.
    - destruct (t <=? en); [|intros s r s' E; eapply grows_quiet in E as [? (d & ? & ?)]; [|quiet]; split; [done|]; exists d; split; [done|lia]].
      apply grows_then; [lia|apply rehash_grows|]. intros _. quiet.
    - intros h'. apply adds_bind; [lia|apply register_quiet|]. intros _. apply adds_bind; [lia|quiet|]. intros _.
      apply adds_bind; [lia|apply updateMaxHead_quiet|]. intros _. apply adds_one.
  Qed.
  Lemma add_adds key : adds 1 (h_add dfltK dfltV ismap hashf eqf key).
  Proof.
    unfold h_add. apply adds_bind; [lia|quiet|]. intros n. apply adds_then; [apply base_add_adds|]. intros e. quiet.
  Qed.
  Lemma put_adds key v : adds 1 (h_put dfltK dfltV ismap hashf eqf key v).
  Proof. unfold h_put. apply adds_then; [apply add_adds|]. intros e. quiet. Qed.

  (** Every call but clear: the counter moves by the number of keys added or removed, at most
      one more. *)
  Notation hstep := (hstep dfltK dfltV ismap hashf eqf).
  Definition counted (s s' : hash) : Prop :=
    exists d, moved d s s' /\ Z.abs (hsize s' - hsize s) <= d <= Z.abs (hsize s' - hsize s) + 1.
  Lemma counted_quiet {A} (m : M hash A) s r s' : quiet m -> m s = (r, s') -> counted s s'.
  Proof. intros Q E. destruct (Q _ _ _ E). exists 0. split; [exists 0; lia|lia]. Qed.
  Lemma counted_drops {A} (m : M hash A) s r s' : drops m -> m s = (r, s') -> counted s s'.
  Proof. intros Q E. destruct (Q _ _ _ E) as [? ?]. eexists. split; [done|lia]. Qed.
  Lemma counted_adds {A} (m : M hash A) s r s' : adds 1 m -> m s = (r, s') -> counted s s'.
  Proof. intros Q E. destruct (Q _ _ _ E) as [? (d & ? & ?)]. exists d. split; [done|lia]. Qed.
  Lemma out_drops {A B} (f : A -> B) (m : M hash A) : drops m -> drops (out_map f m).
  Proof. intros Q. apply drops_bind; [done|]. intros x. apply drops_quiet, quiet_ret. Qed.
  Lemma out_quiet {A B} (f : A -> B) (m : M hash A) : quiet m -> quiet (out_map f m).
  Proof. intros Q. apply quiet_bind; [done|]. intros x. apply quiet_ret. Qed.
  Lemma out_adds hi {A B} (f : A -> B) (m : M hash A) : adds hi m -> adds hi (out_map f m).
  Proof. intros Q. apply adds_then; [done|]. intros x. apply quiet_ret. Qed.
  Lemma call_counted o s r s' : o <> HClear -> (forall n sel, o = HIterate n sel -> exists x, r = Ok x) ->
    hstep o s = (r, s') -> counted s s'.
  Proof.
    intros Hc Hi. destruct o; cbn [Hash_Model.hstep]; try done.
    - apply counted_adds, out_adds, add_adds.
    - apply counted_adds, out_adds, put_adds.
    - apply counted_drops, out_drops, remove2_drops.
    - apply counted_drops, out_drops, removeAt_drops.
    - apply counted_drops, out_drops, reserve_drops.
    - apply counted_quiet, out_quiet, free_quiet.
    - apply counted_quiet, out_quiet. quiet.
    - destruct (Hi _ _ eq_refl) as [x ->]. intros E. apply bind_Ok in E as (y & s1 & E & E1). injection E1 as _ <-.
      destruct (iterate_drops _ _ _ _ _ E) as [? ?]. eexists. split; [done|lia].
    - apply counted_drops, out_drops, visit_drops. intros e. apply drops_bind; [|intros _; apply drops_quiet; quiet].
      destruct (sel e); [apply removeAt_drops|apply drops_quiet; quiet].
    - apply counted_quiet, out_quiet. unfold setHashMethod. quiet.
    - apply counted_quiet, out_quiet. unfold setEqMethod. quiet.
    - apply counted_quiet. quiet.
    - apply counted_quiet. quiet.
    - apply counted_quiet. quiet.
    - apply counted_quiet, out_quiet, lookupEntry_quiet.
    - apply counted_quiet, out_quiet, lookupEntry_quiet.
    - apply counted_quiet, out_quiet. unfold h_get. quiet. apply lookupEntry_quiet.
    - apply counted_quiet, out_quiet. unfold h_getOrDefault. quiet. apply lookupEntry_quiet.
    - apply counted_quiet, out_quiet. quiet.
    - apply counted_quiet, out_quiet. quiet.
    - apply counted_quiet, out_quiet. unfold h_getValueAtOrDefault. quiet.
    - apply counted_drops, out_drops, visit_drops. intros e. apply drops_quiet. quiet.
    - apply counted_drops, out_drops, visit_drops. intros e. apply drops_quiet. quiet.
    - apply counted_drops, out_drops, visit_drops. intros e. apply drops_quiet. quiet.
  Qed.
End Calls.
