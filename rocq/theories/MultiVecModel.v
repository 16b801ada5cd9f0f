(** Model of /repo/pkg/core/multi_vector.go over the store of StoreModel.v. The values of
    the entity metadata are strings (Go allows any JSON value); rows whose JSON cannot be
    read are not modelled. *)
From Coq Require Import String List NArith ZArith Bool.
From Coq Require Import Floats.SpecFloat.
From Verif Require Import Base Floats64 EncodingModel DimensionModel StoreModel SearchModel.
Import ListNotations.
Open Scope string_scope.
Open Scope list_scope.

(** m[k] = v. *)
Fixpoint set_key {V} (k : string) (v : V) (m : list (string * V)) : list (string * V) :=
  match m with
  | [] => [(k, v)]
  | (k', v') :: m' => if String.eqb k k' then (k, v) :: m' else (k', v') :: set_key k v m'
  end.
(** delete(m, k). *)
Definition del_key {V} (k : string) (m : list (string * V)) : list (string * V) :=
  filter (fun p => negb (String.eqb (fst p) k)) m.

(** MultiVectorEntity, multi_vector.go:12-24. The vectors are listed in the order in
    which the map is iterated. *)
Record entity := { m_id : string; m_vecs : list (string * option (list N)); m_meta : option smap; m_content : string }.

(** fmt.Sprintf("%s___%s", ...), multi_vector.go:75. *)
Definition composite_id (id field : string) : string := append id (append "___" field).

(** Metadata of one row, multi_vector.go:78-85. *)
Definition field_meta (e : entity) (field : string) : smap :=
  set_key "_vector_field" field (set_key "_entity_id" (m_id e) (match m_meta e with Some m => m | None => [] end)).
(** The row, multi_vector.go:97-100. *)
Definition field_row (e : entity) (field : string) (blob : list Byte.byte) : row :=
  {| r_id := composite_id (m_id e) field; r_coll := 1; r_blob := blob; r_content := m_content e; r_doc := Some (m_id e);
     r_meta := Some (field_meta e field); r_acl := None |}.

Section Multi.
Variable I : index_ops.
(** The loop in the transaction, multi_vector.go:74-113; [n] numbers the statements.
    The vector index is updated row by row, before the commit. *)
Fixpoint multi_rows (ev : env) (e : entity) (d : db) (i : ix I) (n : nat) (vs : list (string * option (list N))) : option db * ix I * err :=
  match vs with
  | [] => (Some d, i, EOther)
  | (field, v) :: vs' =>
      match encode_vector v with
      | Ok blob =>
          match (if ev_ok ev n then insert_row (ev_fk ev) d (field_row e field blob) else None) with
          | None => (None, i, EOther)
          | Some d' => multi_rows ev e d' (ix_insert I i (composite_id (m_id e) field) (match v with Some w => w | None => [] end)) (S n) vs'
          end
      | Err x => (None, i, x)
      | Panic => (None, i, EOther)
      end
  end.
(** UpsertMultiVector, multi_vector.go:53-116: statement 0 is BEGIN, the last COMMIT.
    The database is rolled back on failure, the index is not. *)
Definition upsert_multi (ev : env) (s : store I) (e : entity) : store I * outcome unit :=
  if st_closed I s then (s, Err EClosed)
  else if negb (ev_ok ev 0) then (s, Err EOther)
  else match multi_rows ev e (st_db I s) (st_ix I s) 1 (m_vecs e) with
       | (None, i, x) => (with_ix I s i, Err x)
       | (Some d, i, _) => if ev_ok ev (S (length (m_vecs e))) then (with_ix I (with_db I s d) i, Ok tt) else (with_ix I s i, Err EOther)
       end.

(** json_extract(metadata, '$._entity_id') = id. *)
Definition of_entity (id : string) (r : row) : bool :=
  match r_meta r with Some m => match assoc "_entity_id" m with Some x => String.eqb x id | None => false end | None => false end.

(** One row of GetMultiVectorEntity, multi_vector.go:287-325. *)
Definition add_field (e : entity) (r : row) : entity :=
  match decode_vector (r_blob r), r_meta r with
  | Ok v, Some m =>
      {| m_id := m_id e;
         m_vecs := match assoc "_vector_field" m with Some f => set_key f (Some v) (m_vecs e) | None => m_vecs e end;
         m_meta := Some (fold_left (fun acc kv => set_key (fst kv) (snd kv) acc) (del_key "_vector_field" (del_key "_entity_id" m))
                           (match m_meta e with Some x => x | None => [] end));
         m_content := if String.eqb (m_content e) "" then r_content r else m_content e |}
  | _, _ => e
  end.
(** GetMultiVectorEntity, multi_vector.go:257-332. *)
Definition get_multi (s : store I) (id : string) : outcome entity :=
  if st_closed I s then Err EClosed
  else
    let e := fold_left add_field (filter (of_entity id) (t_rows (st_db I s))) {| m_id := id; m_vecs := []; m_meta := Some []; m_content := "" |} in
    match m_vecs e with [] => Err ENotFound | _ => Ok e end.

(** DeleteMultiVectorEntity, multi_vector.go:335-384: statement 0 reads the ids, 1 is the
    DELETE. *)
Definition delete_multi (ev : env) (s : store I) (id : string) : store I * outcome unit :=
  if st_closed I s then (s, Err EClosed)
  else if negb (ev_ok ev 0) then (s, Err EOther)
  else if negb (ev_ok ev 1) then (s, Err EOther)
  else
    let rows := t_rows (st_db I s) in
    (with_ix I (with_db I s (with_rows (st_db I s) (filter (fun r => negb (of_entity id r)) rows)))
       (fold_left (fun i r => ix_delete I i (r_id r)) (filter (of_entity id) rows) (st_ix I s)), Ok tt).

(** *** SearchMultiVector *)
Inductive agg := AMax | AMin | ASum | AAverage.   (* "weighted" and unknown methods average *)
(** aggregateScores, multi_vector.go:208-254, on float32 values. *)
Definition aggregate (a : agg) (xs : list float) : float :=
  match xs with
  | [] => f_zero
  | x :: l => match a with
              | AMax => fold_left (fun m y => if fgt y m then y else m) l x
              | AMin => fold_left (fun m y => if flt y m then y else m) l x
              | ASum => fold_left f32_add xs f_zero
              | AAverage => f32_div (fold_left f32_add xs f_zero) (f32_of_Z (Z.of_nat (length xs)))
              end
  end.
(** MultiVectorSearchOptions, multi_vector.go:27-39. *)
Record mvopts := { mv_fields : list string; mv_weights : list (string * float); mv_agg : agg; mv_opts : sopts }.
Definition field_opts (o : sopts) (field : string) : sopts :=
  {| o_coll := o_coll o; o_topk := o_topk o; o_filter := set_key "_vector_field" field (o_filter o); o_threshold := o_threshold o;
     o_textw := o_textw o; o_qtext := o_qtext o |}.
(** A hit: its entity, the embedding, the weighted score. *)
Record hit := { h_entity : string; h_emb : embedding; h_score : float }.
(** multi_vector.go:159-178. *)
Definition hit_of (o : mvopts) (field : string) (x : scored) : list hit :=
  match e_meta (fst x) with
  | Some m => match assoc "_entity_id" m with
              | Some id => [{| h_entity := id; h_emb := fst x;
                               h_score := match assoc field (mv_weights o) with
                                          | Some w => f32_mul (f32_of_f64 (snd x)) w
                                          | None => f32_of_f64 (snd x) end |}]
              | None => []
              end
  | None => []
  end.
(** The loop over the query vectors, multi_vector.go:131-179; errors of a search are
    skipped. The caller's filter map is extended in place, which is not modelled: every
    later iteration overwrites the same key. *)
Fixpoint collect_hits (srt : list scored -> list scored) (noise : nat -> float) (m : mode) (sc : scorer) (s : store I) (o : mvopts)
  (qs : list (string * option (list N))) : outcome (list hit) :=
  match qs with
  | [] => Ok []
  | (field, q) :: qs' =>
      if (match mv_fields o with [] => false | _ => true end) && negb (mem field (mv_fields o))
      then collect_hits srt noise m sc s o qs'
      else match search I srt noise m sc s q (field_opts (mv_opts o) field) with
           | Ok rs => bind (collect_hits srt noise m sc s o qs') (fun hs => Ok (flat_map (hit_of o field) rs ++ hs))
           | Err _ => collect_hits srt noise m sc s o qs'
           | Panic => Panic
           end
  end.
Definition with_id (e : embedding) (id : string) : embedding :=
  {| e_id := id; e_collid := e_collid e; e_coll := e_coll e; e_vec := e_vec e; e_content := e_content e; e_doc := e_doc e; e_meta := e_meta e; e_acl := e_acl e |}.
(** One final result, multi_vector.go:183-188. *)
Definition entity_result (o : mvopts) (hs : list hit) (id : string) : list scored :=
  match filter (fun h => String.eqb (h_entity h) id) hs with
  | [] => []
  | h :: l => [(with_id (h_emb h) id, f64_of_f32 (aggregate (mv_agg o) (map h_score (h :: l))))]
  end.
(** SearchMultiVector, multi_vector.go:119-205. [order] is the iteration order of the
    map of entities. *)
Definition search_multi (srt : list scored -> list scored) (order : list string -> list string) (noise : nat -> float) (m : mode) (sc : scorer)
  (s : store I) (qs : list (string * option (list N))) (o : mvopts) : outcome (list scored) :=
  if st_closed I s then Err EClosed
  else bind (collect_hits srt noise m sc s o qs) (fun hs =>
    let out := ex_sort by_score (flat_map (entity_result o hs) (order (nodup string_dec (map h_entity hs)))) in
    let k := o_topk (mv_opts o) in
    Ok (if (0 <? k)%Z && (k <? Z.of_nat (length out))%Z then firstn (Z.to_nat k) out else out)).
End Multi.
