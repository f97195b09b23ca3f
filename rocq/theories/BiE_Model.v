(** Model of CompactOneToMany.forEachEntry (CompactOneToMany.java:171-173), which passes its
    consumer on to the underlying set (BaseHash.java, BH, lines 95-109), with a consumer that
    calls the bidirectional collection: in Bi_Model it does nothing. *)
From Verif Require Import JBase Num_Model Hash_Model Bi_Model Loops_Model.

Section Each.
  Context {W : Type}.
  Variable body : W -> Z -> lprog bop bout W.
  Notation L := (L bop bout Z bi).

  (** BH:102-107, the inner loop; [hits] as in the code, [w] the variables of the consumer.
      The fuel [n] is given by the caller of the model, as in Each_Model. *)
  Fixpoint bi_chain (n : nat) (e hits : Z) (w : W) : L (Z * W) :=
    match n with
    | O => llift loops
    | S n' =>
        if e <? 0 then llift (ret (hits, w))
        else
          lbind (llift (on_map (rd nexts e))) (fun next =>
          lbind (ltell (LGiven e)) (fun _ =>
          lbind (lexec bstep (body w e)) (fun w' =>
          bi_chain n' next (hits + 1) w')))
    end.
  (** BH:101-108, the outer loop. *)
  Fixpoint bi_heads (n m : nat) (head hits expectedHits : Z) (w : W) : L W :=
    match n with
    | O => llift loops
    | S n' =>
        lbind (llift (gets (fun s => alen (heads (mappings s))))) (fun len =>
        if (head <? len) && (hits <? expectedHits) then
          lbind (llift (on_map (rd heads head))) (fun e =>
          lbind (bi_chain m e hits w) (fun p =>
          bi_heads n' m (head + 1) p.1 expectedHits p.2))
        else llift (ret w))
    end.
  (** BH:95-109. *)
  Definition bi_each (n : nat) (w : W) : L W :=
    lbind (llift (gets (fun s => hsize (mappings s)))) (fun sz =>
    if sz =? 0 then llift (ret w) else bi_heads n n 0 0 sz w).
End Each.
