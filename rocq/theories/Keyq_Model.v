(** Model of queues by key.  An indexed set gives every key with waiting items a number
    (README.md:22-34), and that number is the key's list in a HydraDeque
    (KeyHydraDeque.ftl:18-22: deques sharing one storage, referenced by compact ids).  A key
    leaves the set with its last item, so that its number can go to another key.  The client
    code is
<<
      void push(K key, X item) { deque.addLast(set.add(key), item); }
      X poll(K key) {
        int id = set.lookupEntry(key);
        if (id == -1) return null;
        X item = deque.removeFirst(id);
        if (deque.size(id) == 0) set.removeAt(id);
        return item;
      }
      int size(K key)      { int id = set.lookupEntry(key); return id == -1 ? 0 : deque.size(id); }
      List<X> list(K key)  { int id = set.lookupEntry(key); ... collect deque.iterator(id) ... }
      int total()          { return deque.size(); }
>>
    on top of the models of the two collections. *)
From Verif Require Hash_Model Hydra_Model.
From Verif Require Import JBase Num_Model Bi_Model.

Section Keyq.
  Context {K A : Type}.
  Variables (dfltK : K) (dfltA : A).
  Variables (hashf : Z -> K -> Z) (eqf : Z -> K -> K -> bool).

  Record keyq := mkKeyq { k_set : Hash_Model.hash K unit; k_deque : Hydra_Model.hydra A }.
  #[global] Instance eta_keyq : Settable _ := settable! mkKeyq <k_set; k_deque>.
  Definition on_kset {X} (m : M (Hash_Model.hash K unit) X) : M keyq X := zoom k_set (fun x s => s <| k_set := x |>) m.
  Definition on_deque {X} (m : M (Hydra_Model.hydra A) X) : M keyq X := zoom k_deque (fun x s => s <| k_deque := x |>) m.

  (** The two constructors. *)
  Definition new_keyq (cap : Z) (l : Hash_Model.lf) (queues storage : Z) : res keyq :=
    rbind (Hash_Model.new_Hash dfltK tt false cap l) (fun s =>
    rbind (Hydra_Model.new_Hydra dfltA queues storage) (fun d => Ok (mkKeyq s d))).

  Definition id_of (k : K) : M keyq Z := on_kset (Hash_Model.lookupEntry hashf eqf k).

  Definition k_push (k : K) (x : A) : M keyq unit :=
    let! id := on_kset (Hash_Model.h_add dfltK tt false hashf eqf k) in
    do! on_deque (Hydra_Model.h_addLast dfltA id x) ;
    ret tt.
  Definition k_poll (k : K) : M keyq (option A) :=
    let! id := id_of k in
    if id =? -1 then ret None
    else
      let! x := on_deque (Hydra_Model.h_removeFirst dfltA id) in
      let! n := on_deque (Hydra_Model.h_sizeOf id) in
      if n =? 0 then do! on_kset (Hash_Model.h_removeAt dfltK tt false id) ; ret (Some x)
      else ret (Some x).
  Definition k_size (k : K) : M keyq Z :=
    let! id := id_of k in
    if id =? -1 then ret 0 else on_deque (Hydra_Model.h_sizeOf id).
  Definition k_list (k : K) : M keyq (list A) :=
    let! id := id_of k in
    if id =? -1 then ret []
    else let! p := on_deque (Hydra_Model.it_all Hydra_Model.heads Hydra_Model.nexts id) in ret p.1.

  Inductive kop := KPush (k : K) (x : A) | KPoll (k : K) | KSize (k : K) | KList (k : K) | KTotal | KKeys.
  Inductive kout := KUnit | KX (x : option A) | KN (n : Z) | KL (l : list A).
  Definition kres {X} (f : X -> kout) (m : M keyq X) : M keyq kout := let! x := m in ret (f x).
  Definition kstep (o : kop) : M keyq kout :=
    match o with
    | KPush k x => kres (fun _ => KUnit) (k_push k x)
    | KPoll k => kres KX (k_poll k)
    | KSize k => kres KN (k_size k)
    | KList k => kres KL (k_list k)
    | KTotal => kres KN (on_deque (gets Hydra_Model.hsize))
    | KKeys => kres KN (on_kset (gets Hash_Model.hsize))
    end.
End Keyq.
Arguments keyq : clear implicits.
Arguments kop : clear implicits.
Arguments kout : clear implicits.
