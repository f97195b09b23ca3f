(** Model of the use the README recommends for entries (README.md:22-34, "Array indexing";
    README.md:54-61, "Store, MatrixStore"): an indexed set gives every key a row number, and a
    ChunkStore and a ChunkMatrixStore hold the row's column and fields under that number.  The
    client code is
<<
      int row = set.add(key);         column.set(row, value);
      int row = set.add(key);         fields.set(row, field, value);
      int row = set.lookupEntry(key); if (row != -1) ... column.get(row) ...
      set.forEachEntry(row -> consumer.accept(set.getKeyAt(row), column.get(row)));
>>
    on top of the models of the three collections. *)
From Verif Require Import JBase Num_Model Store_Model Hash_Model Bi_Model App_Model.

Section Table.
  Context {K A B : Type}.
  Variables (dfltK : K) (dfltA : A) (dfltB : B).
  Variable hashf : Z -> K -> Z.
  Variable eqf : Z -> K -> K -> bool.

  Record table := mkTable { t_set : hash K unit; t_col : store A; t_mat : mstore B }.
  #[global] Instance eta_table : Settable _ := settable! mkTable <t_set; t_col; t_mat>.
  Definition on_set {X} (m : M (hash K unit) X) : M table X := zoom t_set (fun x s => s <| t_set := x |>) m.
  Definition on_col {X} (m : M (store A) X) : M table X := zoom t_col (fun x s => s <| t_col := x |>) m.
  Definition on_mat {X} (m : M (mstore B) X) : M table X := zoom t_mat (fun x s => s <| t_mat := x |>) m.

  (** The three constructors. *)
  Definition new_table (cap : Z) (l : lf) (colInit colChunk matInit matChunk numFields : Z) : res table :=
    rbind (new_Hash dfltK tt false cap l) (fun s =>
    rbind (new_ChunkStore dfltA colInit colChunk) (fun c =>
    rbind (new_ChunkMatrixStore dfltB matInit matChunk numFields) (fun m => Ok (mkTable s c m)))).

  Definition set_add (k : K) : M table Z := on_set (h_add dfltK tt false hashf eqf k).
  Definition set_lookup (k : K) : M table Z := on_set (lookupEntry hashf eqf k).

  Definition t_put (k : K) (x : A) : M table Z :=
    let! row := set_add k in
    do! on_col (cs_set dfltA row x) ;
    ret row.
  Definition t_putField (k : K) (field : Z) (x : B) : M table Z :=
    let! row := set_add k in
    do! on_mat (ms_set dfltB row field x) ;
    ret row.
  Definition t_get (k : K) : M table (option A) :=
    let! row := set_lookup k in
    if row =? -1 then ret None else let! x := on_col (cs_get dfltA row) in ret (Some x).
  Definition t_getField (k : K) (field : Z) : M table (option B) :=
    let! row := set_lookup k in
    if row =? -1 then ret None else let! x := on_mat (ms_get dfltB row field) in ret (Some x).
  (** The consumer does not change the collections, so collecting the rows first is the same. *)
  Definition t_scan : M table (list (K * A)) :=
    let! rows := on_set (forEachEntry (fun _ => ret tt)) in
    for_each (fun row =>
      let! k := on_set (rd keys row) in
      let! x := on_col (cs_get dfltA row) in
      ret (k, x)) rows.

  Inductive rop :=
  | RAdd (k : K) | RPut (k : K) (x : A) | RPutField (k : K) (field : Z) (x : B)
  | RRemove (k : K) | RClear
  | RGet (k : K) | RGetField (k : K) (field : Z) | RScan | RSize.
  Inductive rout := RUnit | RRow (row : Z) | RA (x : option A) | RB (x : option B) | RL (l : list (K * A)) | RN (n : Z).
  Definition rstep (o : rop) : M table rout :=
    match o with
    | RAdd k => out_map RRow (set_add k)
    | RPut k x => out_map RRow (t_put k x)
    | RPutField k f x => out_map RRow (t_putField k f x)
    | RRemove k => out_map RRow (on_set (h_remove dfltK tt false hashf eqf k))
    | RClear => out_map (fun _ => RUnit) (on_set (h_clear dfltK tt false))
    | RGet k => out_map RA (t_get k)
    | RGetField k f => out_map RB (t_getField k f)
    | RScan => out_map RL t_scan
    | RSize => out_map RN (on_set (gets hsize))
    end.
End Table.
Arguments table : clear implicits.
Arguments rop : clear implicits.
Arguments rout : clear implicits.
