(** Model of the core store: /repo/pkg/core/store_crud.go, store_query.go,
    collections.go, document.go, store_init.go, store_close.go.

    The SQLite tables are lists in rowid order; INSERT OR REPLACE removes the row
    with the same primary key and appends the new one.  A statement may fail for
    reasons outside the program (I/O error, busy, cancelled context): [ev_ok n] says
    whether the n-th statement of an operation succeeds.  [ev_fk] says whether the
    pooled connection that runs the statement has foreign keys enforced: the PRAGMA
    of store_init.go:42 is executed once, on one of up to 25 pooled connections.
    Timestamps, logging and the quantiser are not modelled.  The JSON texts of
    metadata and ACL columns are represented by the values they encode.  *)
From Coq Require Import String Ascii List NArith ZArith Bool.
From Coq Require Import Init.Byte.
From Verif Require Import Base Floats64 EncodingModel DimensionModel.
Import ListNotations.
Open Scope string_scope.
Open Scope list_scope.

(** Go's map[string]string, as an association list. *)
Definition smap := list (string * string).
Fixpoint assoc {V} (k : string) (m : list (string * V)) : option V :=
  match m with
  | [] => None
  | (k', v) :: m' => if String.eqb k k' then Some v else assoc k m'
  end.

(** Embedding, embedding.go:12-24. [e_vec = None] is a nil slice, [e_meta = None] a
    nil map, [e_acl = []] an empty or nil list. *)
Record embedding := {
  e_id : string; e_collid : Z; e_coll : string; e_vec : option (list N);
  e_content : string; e_doc : string; e_meta : option smap; e_acl : list string }.

(** A row of table embeddings, store_init.go:97-108. *)
Record row := {
  r_id : string; r_coll : Z; r_blob : list byte; r_content : string;
  r_doc : option string; r_meta : option smap; r_acl : option (list string) }.

(** A row of table collections, store_init.go:74-82. *)
Record coll := { c_id : Z; c_name : string; c_dims : Z }.

(** A row of table documents, store_init.go:84-95. *)
Record document := {
  d_id : string; d_title : string; d_url : string; d_content : string; d_version : Z;
  d_author : string; d_meta : option smap; d_acl : list string }.

(** The in-memory vector index behind the store (HNSW or IVF): what the store calls
    on it.  Failures of these calls are only logged (store_crud.go:144-155). *)
Record index_ops := {
  ix : Type;
  ix_insert : ix -> string -> list N -> ix;
  ix_delete : ix -> string -> ix;
  ix_search : ix -> list N -> nat -> list string }.

(** Database contents. *)
Record db := { t_rows : list row; t_colls : list coll; t_next : Z; t_docs : list document }.

Record env := { ev_fk : bool; ev_ok : nat -> bool; ev_noise : nat -> float }.

Definition row_is (id : string) (r : row) : bool := String.eqb (r_id r) id.

(** Foreign-key check of one embeddings row, store_init.go:106-107. *)
Definition fk_ok (d : db) (r : row) : bool :=
  existsb (fun c => Z.eqb (c_id c) (r_coll r)) (t_colls d) &&
  match r_doc r with
  | None => true
  | Some x => existsb (fun y => String.eqb (d_id y) x) (t_docs d)
  end.

(** INSERT OR REPLACE INTO embeddings, store_crud.go:133-138, 212-215. *)
Definition put_row (r : row) (rows : list row) : list row :=
  filter (fun x => negb (row_is (r_id r) x)) rows ++ [r].
Definition insert_row (fk : bool) (d : db) (r : row) : option db :=
  if fk && negb (fk_ok d r) then None
  else Some {| t_rows := put_row r (t_rows d); t_colls := t_colls d; t_next := t_next d; t_docs := t_docs d |}.

Definition with_rows (d : db) (rs : list row) : db :=
  {| t_rows := rs; t_colls := t_colls d; t_next := t_next d; t_docs := t_docs d |}.

(** Name lookup, collections.go:108-153. *)
Definition find_coll (d : db) (name : string) : option coll :=
  find (fun c => String.eqb (c_name c) name) (t_colls d).
Definition coll_name (d : db) (id : Z) : string :=
  match find (fun c => Z.eqb (c_id c) id) (t_colls d) with Some c => c_name c | None => "" end.

(** Collection of an incoming embedding, store_crud.go:91-103, 232-244. *)
Definition resolve_coll (d : db) (e : embedding) : outcome Z :=
  if Z.eqb (e_collid e) 0 then
    if String.eqb (e_coll e) "" then Ok 1%Z
    else match find_coll d (e_coll e) with Some c => Ok (c_id c) | None => Err EOther end
  else Ok (e_collid e).

(** float32 to its bit pattern: sign, 8-bit exponent and 23-bit fraction fields. *)
Definition bits_of_f32 (f : float) : N :=
  match f with
  | SpecFloat.S754_nan => 2143289344
  | SpecFloat.S754_zero s => if s then 2147483648 else 0
  | SpecFloat.S754_infinity s => (if s then 2147483648 else 0) + 2139095040
  | SpecFloat.S754_finite s m e =>
      let expo := if N.ltb (Npos m) 8388608 then 0%N else Z.to_N (e + 150) in
      (if s then 2147483648 else 0) + N.modulo expo 256 * 8388608 + N.modulo (Npos m) 8388608
  end%N.

(** AdaptVector on bit patterns (dimension.go:30-53). *)
Definition adapt_bits (noise : nat -> float) (p : policy) (v : list N) (t : Z) : outcome (list N) :=
  bind (adapt_vector noise p (map f32_of_bits v) (Z.of_nat (length v)) t) (fun w => Ok (map bits_of_f32 w)).

Definition vec_of (e : embedding) : list N := match e_vec e with Some v => v | None => [] end.

(** Row built from an embedding and its encoded vector, store_crud.go:105-138. *)
Definition make_row (e : embedding) (cid : Z) (blob : list byte) : row :=
  {| r_id := e_id e; r_coll := cid; r_blob := blob; r_content := e_content e;
     r_doc := if String.eqb (e_doc e) "" then None else Some (e_doc e);
     r_meta := e_meta e;
     r_acl := match e_acl e with [] => None | a => Some a end |}.

Section Store.
Variable I : index_ops.

(** SQLiteStore: database, VectorDim, adapter policy, closed flag, index. The
    adapter keeps the policy given at construction (store.go:43-73). *)
Record store := { st_db : db; st_dim : Z; st_policy : policy; st_closed : bool; st_ix : ix I }.

Definition with_db (s : store) (d : db) : store :=
  {| st_db := d; st_dim := st_dim s; st_policy := st_policy s; st_closed := st_closed s; st_ix := st_ix s |}.
Definition with_dim (s : store) (n : Z) : store :=
  {| st_db := st_db s; st_dim := n; st_policy := st_policy s; st_closed := st_closed s; st_ix := st_ix s |}.
Definition with_ix (s : store) (i : ix I) : store :=
  {| st_db := st_db s; st_dim := st_dim s; st_policy := st_policy s; st_closed := st_closed s; st_ix := i |}.

(** Upsert, store_crud.go:15-158. *)
Definition upsert (ev : env) (s : store) (e : embedding) : store * outcome unit :=
  if st_closed s then (s, Err EClosed) else
  let inc := Z.of_nat (length (vec_of e)) in
  let s1 := if Z.eqb (st_dim s) 0 then with_dim s inc else s in
  match (if Z.eqb inc (st_dim s1) then Ok (e_vec e)
         else bind (adapt_bits (ev_noise ev) (st_policy s1) (vec_of e) (st_dim s1)) (fun w => Ok (Some w))) with
  | Err x => (s1, Err x)
  | Panic => (s1, Panic)
  | Ok v =>
      match resolve_coll (st_db s1) e with
      | Err x => (s1, Err x)
      | Panic => (s1, Panic)
      | Ok cid =>
          match encode_vector v with
          | Err x => (s1, Err x)
          | Panic => (s1, Panic)
          | Ok blob =>
              match (if ev_ok ev 0 then insert_row (ev_fk ev) (st_db s1) (make_row e cid blob) else None) with
              | None => (s1, Err EOther)
              | Some d =>
                  (with_ix (with_db s1 d)
                     (ix_insert I (st_ix s1) (e_id e) (match v with Some w => w | None => [] end)), Ok tt)
              end
          end
      end
  end.

(** The transaction body of UpsertBatch, store_crud.go:226-276; [n] numbers the
    statements.  No dimension check or adaptation happens here. *)
Fixpoint batch_rows (ev : env) (d : db) (n : nat) (es : list embedding) : outcome db :=
  match es with
  | [] => Ok d
  | e :: es' =>
      bind (resolve_coll d e) (fun cid =>
      bind (encode_vector (e_vec e)) (fun blob =>
      match (if ev_ok ev n then insert_row (ev_fk ev) d (make_row e cid blob) else None) with
      | None => Err EOther
      | Some d' => batch_rows ev d' (S n) es'
      end))
  end.

(** UpsertBatch, store_crud.go:161-314: statement 0 is BEGIN, 1..n the inserts, n+1
    COMMIT; any failure rolls back. *)
Definition upsert_batch (ev : env) (s : store) (es : list embedding) : store * outcome unit :=
  if st_closed s then (s, Err EClosed) else
  match es with
  | [] => (s, Ok tt)
  | _ =>
      if negb (ev_ok ev 0) then (s, Err EOther)
      else match batch_rows ev (st_db s) 1 es with
           | Err x => (s, Err x)
           | Panic => (s, Panic)
           | Ok d =>
               if ev_ok ev (S (length es))
               then (with_ix (with_db s d)
                      (fold_left (fun i e => ix_insert I i (e_id e) (vec_of e)) es (st_ix s)), Ok tt)
               else (s, Err EOther)
           end
  end.

(** Delete, store_crud.go:317-358. *)
Definition delete (ev : env) (s : store) (id : string) : store * outcome unit :=
  if st_closed s then (s, Err EClosed)
  else if String.eqb id "" then (s, Err EOther)
  else if negb (ev_ok ev 0) then (s, Err EOther)
  else
    let rows := t_rows (st_db s) in
    if existsb (row_is id) rows
    then (with_ix (with_db s (with_rows (st_db s) (filter (fun r => negb (row_is id r)) rows)))
            (ix_delete I (st_ix s) id), Ok tt)
    else (s, Err ENotFound).

Definition doc_is (doc : string) (r : row) : bool :=
  match r_doc r with Some x => String.eqb x doc | None => false end.

(** DeleteByDocID, store_crud.go:361-379. *)
Definition delete_by_doc (ev : env) (s : store) (doc : string) : store * outcome unit :=
  if st_closed s then (s, Err EClosed)
  else if String.eqb doc "" then (s, Err EOther)
  else if negb (ev_ok ev 0) then (s, Err EOther)
  else (with_db s (with_rows (st_db s) (filter (fun r => negb (doc_is doc r)) (t_rows (st_db s)))), Ok tt).

(** Unicode White_Space as UTF-8, what strings.TrimSpace strips. *)
Fixpoint all_space (s : string) : bool :=
  match s with
  | "" => true
  | String a s1 =>
      let n := N_of_ascii a in
      if orb (andb (N.leb 9 n) (N.leb n 13)) (N.eqb n 32) then all_space s1
      else match s1 with
      | "" => false
      | String b s2 =>
          let m := N_of_ascii b in
          if andb (N.eqb n 194) (orb (N.eqb m 133) (N.eqb m 160)) then all_space s2
          else match s2 with
          | "" => false
          | String c s3 =>
              let k := N_of_ascii c in
              if orb (andb (N.eqb n 225) (andb (N.eqb m 154) (N.eqb k 128)))
                 (orb (andb (N.eqb n 226) (orb (andb (N.eqb m 128)
                                             (orb (andb (N.leb 128 k) (N.leb k 138))
                                                  (orb (N.eqb k 168) (orb (N.eqb k 169) (N.eqb k 175)))))
                                          (andb (N.eqb m 129) (N.eqb k 159))))
                      (andb (N.eqb n 227) (andb (N.eqb m 128) (N.eqb k 128))))
              then all_space s3 else false
          end
      end
  end.

(** Chunks of at most [n] ids, store_crud.go:409-416. *)
Fixpoint chunks_fuel {A} (fuel n : nat) (l : list A) : list (list A) :=
  match fuel, l with
  | S f, _ :: _ => firstn n l :: chunks_fuel f n (skipn n l)
  | _, _ => []
  end.
Definition chunks {A} (n : nat) (l : list A) : list (list A) := chunks_fuel (length l) n l.

Definition mem (id : string) (ids : list string) : bool := existsb (String.eqb id) ids.

(** The chunk loop, store_crud.go:410-436: every chunk is its own autocommitted
    statement. Returns the rows reached, the affected count and whether all
    statements succeeded. *)
Fixpoint delete_chunks (ev : env) (n : nat) (cs : list (list string)) (rows : list row) (cnt : nat)
  : list row * nat * bool :=
  match cs with
  | [] => (rows, cnt, true)
  | c :: cs' =>
      if ev_ok ev n then
        delete_chunks ev (S n) cs' (filter (fun r => negb (mem (r_id r) c)) rows)
          (cnt + length (filter (fun r => mem (r_id r) c) rows))
      else (rows, cnt, false)
  end.

(** DeleteBatch, store_crud.go:382-462. *)
Definition delete_batch (ev : env) (s : store) (ids : list string) : store * outcome unit :=
  if st_closed s then (s, Err EClosed)
  else
    let valid := filter (fun id => negb (all_space id)) ids in
    match valid with
    | [] => (s, Ok tt)
    | _ =>
        let '(rows, cnt, done) := delete_chunks ev 0 (chunks 500 valid) (t_rows (st_db s)) 0 in
        let s1 := with_db s (with_rows (st_db s) rows) in
        if negb done then (s1, Err EOther)
        else if Nat.eqb cnt 0 then (s1, Err ENotFound)
        else (with_ix s1 (fold_left (fun i id => ix_delete I i id) valid (st_ix s)), Ok tt)
    end.

(** What a WHERE clause says of a row: [Some b], or [None] when evaluating it is a
    run-time error (SQLite's "malformed JSON"). *)
Definition clause := row -> option bool.
Definition selects (c : clause) (r : row) : bool := match c r with Some b => b | None => false end.
Definition failing (c : clause) (r : row) : bool := match c r with None => true | Some _ => false end.
(** The rows a SELECT yields before it stops at a run-time error. *)
Fixpoint select_rows (c : clause) (rows : list row) : list row :=
  match rows with
  | [] => []
  | r :: rows' => match c r with
                  | None => []
                  | Some b => if b then r :: select_rows c rows' else select_rows c rows'
                  end
  end.

(** DeleteByFilter after its clause is built, store_crud.go:472-531: an error while
    the ids are read is not looked at (lines 494-499); the DELETE is one statement. *)
Definition delete_where (ev : env) (s : store) (c : clause) : store * outcome unit :=
  if st_closed s then (s, Err EClosed)
  else if negb (ev_ok ev 0) then (s, Err EOther)
  else
    let rows := t_rows (st_db s) in
    match map r_id (select_rows c rows) with
    | [] => (s, Ok tt)
    | ids =>
        if negb (ev_ok ev 1) || existsb (failing c) rows then (s, Err EOther)
        else (with_ix (with_db s (with_rows (st_db s) (filter (fun r => negb (selects c r)) rows)))
                (fold_left (fun i id => ix_delete I i id) ids (st_ix s)), Ok tt)
    end.

(** Clear, store_crud.go:535-551. *)
Definition clear (ev : env) (s : store) : store * outcome unit :=
  if st_closed s then (s, Err EClosed)
  else if negb (ev_ok ev 0) then (s, Err EOther)
  else (with_db s (with_rows (st_db s) []), Ok tt).

(** The transaction of ClearByDocID, store_crud.go:589-597. *)
Fixpoint clear_docs_tx (ev : env) (n : nat) (docs : list string) (rows : list row) : option (list row) :=
  match docs with
  | [] => Some rows
  | x :: docs' =>
      if String.eqb x "" then clear_docs_tx ev n docs' rows
      else if ev_ok ev n then clear_docs_tx ev (S n) docs' (filter (fun r => negb (doc_is x r)) rows)
      else None
  end.

(** ClearByDocID, store_crud.go:554-607; statement 0 is BEGIN, 1 COMMIT, 2.. the deletes. *)
Definition clear_by_docs (ev : env) (s : store) (docs : list string) : store * outcome unit :=
  if st_closed s then (s, Err EClosed)
  else match docs with
  | [] => (s, Ok tt)
  | _ =>
      if negb (ev_ok ev 0) then (s, Err EOther)
      else match clear_docs_tx ev 2 docs (t_rows (st_db s)) with
           | None => (s, Err EOther)
           | Some rows => if ev_ok ev 1 then (with_db s (with_rows (st_db s) rows), Ok tt) else (s, Err EOther)
           end
  end.

(** CreateCollection, collections.go:33-105 (AUTOINCREMENT ids). *)
Definition create_collection (ev : env) (s : store) (name : string) (dims : Z) : store * outcome coll :=
  if st_closed s then (s, Err EClosed)
  else match find_coll (st_db s) name with
  | Some _ => (s, Err EOther)
  | None =>
      if Z.ltb dims 0 then (s, Err EOther)
      else if negb (ev_ok ev 0) then (s, Err EOther)
      else
        let d := st_db s in
        let c := {| c_id := t_next d; c_name := name; c_dims := dims |} in
        (with_db s {| t_rows := t_rows d; t_colls := t_colls d ++ [c]; t_next := t_next d + 1; t_docs := t_docs d |}, Ok c)
  end.

(** GetCollection, collections.go:108-153. *)
Definition get_collection (s : store) (name : string) : outcome coll :=
  if st_closed s then Err EClosed
  else match find_coll (st_db s) name with Some c => Ok c | None => Err EOther end.

(** DeleteCollection, collections.go:216-264: one transaction; the index is not touched. *)
Definition delete_collection (ev : env) (s : store) (name : string) : store * outcome unit :=
  if st_closed s then (s, Err EClosed)
  else match find_coll (st_db s) name with
  | None => (s, Err EOther)
  | Some c =>
      if ev_ok ev 0 && ev_ok ev 1 && ev_ok ev 2 then
        let d := st_db s in
        (with_db s {| t_rows := filter (fun r => negb (Z.eqb (r_coll r) (c_id c))) (t_rows d);
                      t_colls := filter (fun x => negb (Z.eqb (c_id x) (c_id c))) (t_colls d);
                      t_next := t_next d; t_docs := t_docs d |}, Ok tt)
      else (s, Err EOther)
  end.

(** GetCollectionStats, collections.go:267-308: number of rows and total blob size. *)
Definition collection_stats (s : store) (name : string) : outcome (Z * Z) :=
  bind (get_collection s name) (fun c =>
    let rs := filter (fun r => Z.eqb (r_coll r) (c_id c)) (t_rows (st_db s)) in
    Ok (Z.of_nat (length rs), fold_left (fun a r => a + Z.of_nat (length (r_blob r)))%Z rs 0%Z)).

(** CreateDocument, document.go:26-55: a duplicate id violates the primary key. *)
Definition create_document (ev : env) (s : store) (x : document) : store * outcome unit :=
  if st_closed s then (s, Err EClosed)
  else if existsb (fun y => String.eqb (d_id y) (d_id x)) (t_docs (st_db s)) then (s, Err EOther)
  else if negb (ev_ok ev 0) then (s, Err EOther)
  else let d := st_db s in
       (with_db s {| t_rows := t_rows d; t_colls := t_colls d; t_next := t_next d; t_docs := t_docs d ++ [x] |}, Ok tt).

(** GetDocument, document.go:58-94. *)
Definition get_document (s : store) (id : string) : outcome document :=
  if st_closed s then Err EClosed
  else match find (fun y => String.eqb (d_id y) id) (t_docs (st_db s)) with Some x => Ok x | None => Err ENotFound end.

(** UpdateDocument, document.go:135-173. *)
Definition update_document (ev : env) (s : store) (x : document) : store * outcome unit :=
  if st_closed s then (s, Err EClosed)
  else if negb (ev_ok ev 0) then (s, Err EOther)
  else let d := st_db s in
       if existsb (fun y => String.eqb (d_id y) (d_id x)) (t_docs d)
       then (with_db s {| t_rows := t_rows d; t_colls := t_colls d; t_next := t_next d;
                          t_docs := map (fun y => if String.eqb (d_id y) (d_id x) then x else y) (t_docs d) |}, Ok tt)
       else (s, Err ENotFound).

(** DeleteDocument, document.go:97-132: index entries first (the lookup, statement
    0, is best effort), then one DELETE (statement 1) whose cascade happens only on a
    connection that enforces foreign keys. *)
Definition delete_document (ev : env) (s : store) (id : string) : store * outcome unit :=
  if st_closed s then (s, Err EClosed)
  else
    let d := st_db s in
    let victims := map r_id (filter (doc_is id) (t_rows d)) in
    let s1 := if ev_ok ev 0 then with_ix s (fold_left (fun i x => ix_delete I i x) victims (st_ix s)) else s in
    if negb (ev_ok ev 1) then (s1, Err EOther)
    else
      let exists_doc := existsb (fun y => String.eqb (d_id y) id) (t_docs d) in
      (with_db s1 {| t_rows := if ev_fk ev && exists_doc then filter (fun r => negb (doc_is id r)) (t_rows d) else t_rows d;
                     t_colls := t_colls d; t_next := t_next d;
                     t_docs := filter (fun y => negb (String.eqb (d_id y) id)) (t_docs d) |}, Ok tt).

(** ListDocumentsWithFilter, document.go:177-218: no closed check, the closed
    database handle reports a generic error; a negative limit means no limit. *)
Definition list_documents_with_filter (newest_first : list document -> list document)
           (s : store) (author : string) (limit : Z) : outcome (list document) :=
  if st_closed s then Err EOther
  else
    let ds := newest_first (filter (fun x => orb (String.eqb author "") (String.eqb (d_author x) author)) (t_docs (st_db s))) in
    Ok (if Z.ltb limit 0 then ds else firstn (Z.to_nat limit) ds).

(** scanEmbeddingForGet, store_query.go:231-283; [full] is the 8-column form of
    GetByID, otherwise ACL and collection are left empty. *)
Definition scan_get (full : bool) (d : db) (r : row) : outcome embedding :=
  bind (decode_vector (r_blob r)) (fun v =>
    Ok {| e_id := r_id r; e_collid := 0;
          e_coll := if full then coll_name d (r_coll r) else "";
          e_vec := Some v; e_content := r_content r;
          e_doc := match r_doc r with Some x => x | None => "" end;
          e_meta := r_meta r;
          e_acl := if full then match r_acl r with Some a => a | None => [] end else [] |}).

(** GetByID, store_query.go:14-49. *)
Definition get_by_id (s : store) (id : string) : outcome embedding :=
  if st_closed s then Err EClosed
  else match find (row_is id) (t_rows (st_db s)) with
       | None => Err ENotFound
       | Some r => scan_get true (st_db s) r
       end.

Definition oks {A} (l : list (outcome A)) : list A :=
  flat_map (fun x => match x with Ok a => [a] | _ => [] end) l.

(** GetByDocID, store_query.go:52-90; ORDER BY created_at ([by_time], second
    granularity) over the rows. *)
Definition get_by_doc (by_time : list row -> list row) (s : store) (doc : string) : outcome (list embedding) :=
  if st_closed s then Err EClosed
  else if String.eqb doc "" then Err EOther
  else Ok (oks (map (scan_get false (st_db s)) (by_time (filter (doc_is doc) (t_rows (st_db s)))))).

(** SELECT DISTINCT ... ORDER BY doc_id, store_query.go:93-126; [srt] orders text. *)
Definition list_documents (srt : list string -> list string) (s : store) : outcome (list string) :=
  if st_closed s then Err EClosed
  else Ok (srt (nodup string_dec
    (flat_map (fun r => match r_doc r with Some x => if String.eqb x "" then [] else [x] | None => [] end)
              (t_rows (st_db s))))).

(** ListDocumentsWithInfo, store_query.go:129-183: GROUP BY doc_id with COUNT; the two
    timestamps are not modelled. *)
Definition list_documents_info (srt : list string -> list string) (s : store) : outcome (list (string * Z)) :=
  bind (list_documents srt s) (fun ds =>
    Ok (map (fun x => (x, Z.of_nat (length (filter (doc_is x) (t_rows (st_db s)))))) ds)).
(** ListCollections, collections.go:156-213, ORDER BY created_at DESC ([newest_first]). *)
Definition list_collections (newest_first : list coll -> list coll) (s : store) : outcome (list coll) :=
  if st_closed s then Err EClosed else Ok (newest_first (t_colls (st_db s))).
(** GetDocumentsByType, store_query.go:186-228. *)
Definition get_by_type (by_time : list row -> list row) (s : store) (ty : string) : outcome (list embedding) :=
  if st_closed s then Err EClosed
  else if String.eqb ty "" then Err EOther
  else Ok (filter (fun e => match e_meta e with
                            | None => false
                            | Some m => match assoc "type" m with Some x => String.eqb x ty | None => String.eqb "" ty end
                            end)
             (oks (map (scan_get false (st_db s)) (by_time (t_rows (st_db s)))))).

(** Stats, store.go:107-133: row count and configured dimension. *)
Definition stats (s : store) : outcome (Z * Z) :=
  if st_closed s then Err EClosed else Ok (Z.of_nat (length (t_rows (st_db s))), st_dim s).

(** Close, store_close.go:9-39. *)
Definition close (s : store) : store * outcome unit :=
  ({| st_db := st_db s; st_dim := st_dim s; st_policy := st_policy s; st_closed := true; st_ix := st_ix s |}, Ok tt).

(** createTables on an existing database, store_init.go:183-190: INSERT OR IGNORE of
    the default collection: skipped when id 1 or name 'default' exists. *)
Definition default_coll (dim : Z) : coll := {| c_id := 1; c_name := "default"; c_dims := dim |}.
Definition init_db (dim : Z) (d : db) : db :=
  if existsb (fun c => orb (Z.eqb (c_id c) 1) (String.eqb (c_name c) "default")) (t_colls d) then d
  else {| t_rows := t_rows d; t_colls := t_colls d ++ [default_coll dim];
          t_next := Z.max (t_next d) 2; t_docs := t_docs d |}.
Definition empty_db : db := {| t_rows := []; t_colls := []; t_next := 1; t_docs := [] |}.

(** New + Init on an empty file; a negative dimension is refused (store.go:43-55). *)
Definition open_store (dim : Z) (p : policy) (d : db) (i : ix I) : outcome store :=
  if Z.ltb dim 0 then Err EInvalidConfig
  else Ok {| st_db := init_db dim d; st_dim := dim; st_policy := p; st_closed := false; st_ix := i |}.

(** Mutating operations of the store and their execution. *)
Inductive op :=
| OUpsert (e : embedding) | OUpsertBatch (es : list embedding)
| ODelete (id : string) | ODeleteByDoc (doc : string) | ODeleteBatch (ids : list string) | ODeleteWhere (c : clause)
| OClear | OClearDocs (docs : list string)
| OCreateColl (name : string) (dims : Z) | ODeleteColl (name : string)
| OCreateDoc (x : document) | OUpdateDoc (x : document) | ODeleteDoc (id : string)
| OClose.

Definition ok_of {A} (o : outcome A) : outcome unit := bind o (fun _ => Ok tt).

Definition step (ev : env) (s : store) (o : op) : store * outcome unit :=
  match o with
  | OUpsert e => upsert ev s e
  | OUpsertBatch es => upsert_batch ev s es
  | ODelete id => delete ev s id
  | ODeleteByDoc x => delete_by_doc ev s x
  | ODeleteBatch ids => delete_batch ev s ids
  | ODeleteWhere c => delete_where ev s c
  | OClear => clear ev s
  | OClearDocs xs => clear_by_docs ev s xs
  | OCreateColl n k => let (s', r) := create_collection ev s n k in (s', ok_of r)
  | ODeleteColl n => delete_collection ev s n
  | OCreateDoc x => create_document ev s x
  | OUpdateDoc x => update_document ev s x
  | ODeleteDoc id => delete_document ev s id
  | OClose => close s
  end.

(** A history: operations, each with the environment it met. *)
Definition run (s : store) (h : list (env * op)) : store :=
  fold_left (fun s '(ev, o) => fst (step ev s o)) h s.

End Store.
