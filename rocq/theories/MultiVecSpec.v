(** What the theorems on multi-vector entities are stated in terms of. *)
From Coq Require Import String Ascii List NArith ZArith Bool Permutation.
From Verif Require Import Base Floats64 EncodingModel EncodingSpec DimensionModel StoreModel StoreSpec SearchModel MultiVecModel.
Import ListNotations.
Open Scope string_scope.
Open Scope list_scope.

(** Field [f] of entity [id] as GetMultiVectorEntity reports it; [None] when the entity
    or the field is absent. *)
Definition entity_vector (I : index_ops) (s : store I) (id f : string) : option (list N) :=
  match get_multi I s id with
  | Ok e => match assoc f (m_vecs e) with Some v => v | None => None end
  | _ => None
  end.

(** The field names are distinct (they are the keys of a map) and the vectors consist of
    float32 bit patterns. *)
Definition well_formed (e : entity) : Prop :=
  NoDup (map fst (m_vecs e)) /\ forall f v, In (f, Some v) (m_vecs e) -> float32_bits v.

(** No character of the text is an underscore. *)
Fixpoint no_underscore (s : string) : Prop :=
  match s with EmptyString => True | String c s' => c <> "_"%char /\ no_underscore s' end.

(** An ordinary operation that does not write the reserved metadata key. *)
Definition upserted (o : op) : list embedding :=
  match o with OUpsert e => [e] | OUpsertBatch es => es | _ => [] end.
Definition plain (o : op) : Prop :=
  forall e m, In e (upserted o) -> e_meta e = Some m -> assoc "_entity_id" m = None.

(** States reached by any mixture of ordinary operations, entity operations and
    reopening. *)
Inductive mreach (I : index_ops) : store I -> Prop :=
| mr_new dim p i s : open_store I dim p empty_db i = Ok s -> mreach I s
| mr_op s ev o : mreach I s -> plain o -> mreach I (fst (step I ev s o))
| mr_upsert s ev e : mreach I s -> mreach I (fst (upsert_multi I ev s e))
| mr_delete s ev id : mreach I s -> mreach I (fst (delete_multi I ev s id))
| mr_reopen s dim p i s' : mreach I s -> open_store I dim p (st_db I s) i = Ok s' -> mreach I s'.

(** *** Search *)
(** The options of the search of one field: as given, with the filter also requiring the
    field. *)
Definition restricted (o : sopts) (f : string) (o' : sopts) : Prop :=
  o_coll o' = o_coll o /\ o_topk o' = o_topk o /\ o_threshold o' = o_threshold o /\ o_textw o' = o_textw o /\ o_qtext o' = o_qtext o /\
  forall k, assoc k (o_filter o') = if String.eqb k "_vector_field" then Some f else assoc k (o_filter o).
(** The field searches that are made and succeed, in order, with their results. *)
Inductive field_results (I : index_ops) (srt : list scored -> list scored) (noise : nat -> float) (m : mode) (sc : scorer) (s : store I) (o : mvopts)
  : list (string * option (list N)) -> list (string * list scored) -> Prop :=
| fr_nil : field_results I srt noise m sc s o [] []
| fr_unwanted f q qs l : mv_fields o <> [] -> ~ In f (mv_fields o) -> field_results I srt noise m sc s o qs l ->
    field_results I srt noise m sc s o ((f, q) :: qs) l
| fr_error f q qs l x o' : (mv_fields o = [] \/ In f (mv_fields o)) ->
    restricted (mv_opts o) f o' -> search I srt noise m sc s q o' = Err x -> field_results I srt noise m sc s o qs l ->
    field_results I srt noise m sc s o ((f, q) :: qs) l
| fr_found f q qs l rs o' : (mv_fields o = [] \/ In f (mv_fields o)) ->
    restricted (mv_opts o) f o' -> search I srt noise m sc s q o' = Ok rs -> field_results I srt noise m sc s o qs l ->
    field_results I srt noise m sc s o ((f, q) :: qs) ((f, rs) :: l).

Definition belongs (id : string) (e : embedding) : Prop := exists m, e_meta e = Some m /\ assoc "_entity_id" m = Some id.
(** The score of a result in single precision, times the field's weight if it has one. *)
Definition weighted (o : mvopts) (f : string) (x : float) : float :=
  match assoc f (mv_weights o) with Some w => f32_mul (f32_of_f64 x) w | None => f32_of_f64 x end.
(** [xs] are the weighted scores of the results that belong to the entity, in order;
    [es] the embeddings. *)
Inductive entity_scores (o : mvopts) (id : string) : list (string * list scored) -> list embedding -> list float -> Prop :=
| es_nil : entity_scores o id [] [] []
| es_next f l es xs : entity_scores o id l es xs -> entity_scores o id ((f, []) :: l) es xs
| es_take f e x rs l es xs : belongs id e -> entity_scores o id ((f, rs) :: l) es xs ->
    entity_scores o id ((f, (e, x) :: rs) :: l) (e :: es) (weighted o f x :: xs)
| es_skip f e x rs l es xs : ~ belongs id e -> entity_scores o id ((f, rs) :: l) es xs ->
    entity_scores o id ((f, (e, x) :: rs) :: l) es xs.

(** The combined score of a non-empty list of scores. *)
Definition combined (a : agg) (xs : list float) (y : float) : Prop :=
  match a with
  | AMax => In y xs /\ ((forall x, In x xs -> not_nan x) -> forall x, In x xs -> flt y x = false)
  | AMin => In y xs /\ ((forall x, In x xs -> not_nan x) -> forall x, In x xs -> flt x y = false)
  | ASum => y = fold_left f32_add xs f_zero
  | AAverage => y = f32_div (fold_left f32_add xs f_zero) (f32_of_Z (Z.of_nat (length xs)))
  end.

(** The entity of a result, and the answer for one entity: the first embedding found for
    it, under the entity's id, with the combined score. *)
Definition entity_answer (o : mvopts) (l : list (string * list scored)) (id : string) (x : scored) : Prop :=
  exists e es ys y, entity_scores o id l (e :: es) ys /\ combined (mv_agg o) ys y /\
    e_id (fst x) = id /\ e_vec (fst x) = e_vec e /\ e_content (fst x) = e_content e /\ e_doc (fst x) = e_doc e /\ e_meta (fst x) = e_meta e /\
    e_collid (fst x) = e_collid e /\ e_coll (fst x) = e_coll e /\ e_acl (fst x) = e_acl e /\ snd x = f64_of_f32 y.
(** Some result of some field belongs to the entity. *)
Definition found (l : list (string * list scored)) (id : string) : Prop :=
  exists f rs x, In (f, rs) l /\ In x rs /\ belongs id (fst x).
