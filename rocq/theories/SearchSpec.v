(** What the search theorems are stated in terms of. *)
From Coq Require Import String List NArith ZArith Bool.
From Verif Require Import Base Floats64 TopK DimensionModel StoreModel SearchModel.
Import ListNotations.
Open Scope string_scope.
Open Scope list_scope.

(** A stored embedding as search reports it: without its access list. *)
Definition without_acl (e : embedding) : embedding :=
  {| e_id := e_id e; e_collid := e_collid e; e_coll := e_coll e; e_vec := e_vec e; e_content := e_content e;
     e_doc := e_doc e; e_meta := e_meta e; e_acl := [] |}.

(** The metadata value of a key; an absent key counts as empty. *)
Definition meta_is (e : embedding) (k v : string) : Prop :=
  exists m, e_meta e = Some m /\ meta_get m k = v.

(** The options' collection, and every filter entry: "doc_id" names the document,
    any other key a metadata value. *)
Definition in_collection (o : sopts) (e : embedding) : Prop := o_coll o = "" \/ e_coll e = o_coll o.
Definition meta_matches (o : sopts) (e : embedding) : Prop :=
  forall k v, In (k, v) (o_filter o) -> k <> "doc_id" -> meta_is e k v.
Definition doc_matches (o : sopts) (e : embedding) : Prop :=
  forall v, In ("doc_id", v) (o_filter o) -> e_doc e = v /\ v <> "".
Definition qualifies (o : sopts) (e : embedding) : Prop :=
  in_collection o e /\ meta_matches o e /\ doc_matches o e.

(** At most TopK results, ten when it is not positive. *)
Definition result_count (o : sopts) : nat := if Z.ltb 0 (o_topk o) then Z.to_nat (o_topk o) else 10.

(** The score: the vector similarity alone when there is no text part (no text
    similarity, no query text, a similarity or a weight that is not positive), else
    (1 - w) * vector + w * text. [w] is the requested weight cut off at 1, or the
    configured default when none is requested. *)
Definition text_part (sc : scorer) (o : sopts) (e : embedding) : option float :=
  match sc_text sc with
  | None => None
  | Some f => if String.eqb (o_qtext o) "" then None
              else if fgt (f (o_qtext o) (e_content e)) f_zero then Some (f (o_qtext o) (e_content e)) else None
  end.
Definition weight_used (sc : scorer) (o : sopts) : float :=
  if fgt (o_textw o) f_zero then (if flt (o_textw o) f_one then o_textw o else f_one)
  else if sc_enabled sc then sc_default sc else f_zero.
Definition blended (sc : scorer) (o : sopts) (q : list N) (e : embedding) : float :=
  match text_part sc o e with
  | None => sc_sim sc q (vec_of e)
  | Some t => if fgt (weight_used sc o) f_zero
              then f64_add (f64_mul (sc_sim sc q (vec_of e)) (f64_sub f_one (weight_used sc o))) (f64_mul t (weight_used sc o))
              else sc_sim sc q (vec_of e)
  end.

(** A positive threshold is a lower bound on the score. *)
Definition above_threshold (o : sopts) (x : float) : Prop :=
  fgt (o_threshold o) f_zero = true -> fge x (o_threshold o) = true.

(** [all] lists, once each, exactly the stored embeddings satisfying [P], with their
    scores. *)
Definition lists_stored (I : index_ops) (s : store I) (P : embedding -> Prop) (score_of : embedding -> float)
  (all : list scored) : Prop :=
  NoDup (map (fun x => e_id (fst x)) all) /\
  forall e x, In (e, x) all <->
    exists e0, get_by_id I s (e_id e) = Ok e0 /\ e = without_acl e0 /\ P e /\ x = score_of e.

(** The vector a query is answered for: the query itself when it has the store's
    dimension (or the store has none yet), else its adaptation. *)
Definition query_used (noise : nat -> float) (p : policy) (dim : Z) (q : option (list N)) (w : list N) : Prop :=
  (q = Some w /\ (dim <= 0 \/ dim = Z.of_nat (length w))%Z) \/
  ((0 < dim)%Z /\ adapt_bits noise p (match q with Some v => v | None => [] end) dim = Ok w).

(** Best first. *)
Definition best_first (out : list scored) : Prop :=
  Sorted.StronglySorted (fun a b => flt (snd a) (snd b) = false) out.

(** An embedding satisfies a SearchWithFilter filter map. *)
Definition passes (fmt_g : float -> string) (fs : list (string * fval)) (e : embedding) : Prop :=
  forall k f, In (k, f) fs -> exists m a, e_meta e = Some m /\ assoc k m = Some a /\
    match f with
    | FStr x => a = x
    | FInt z => a = fmt_d z
    | FFloat g => a = fmt_g g
    | FBool b => a = fmt_t b
    | FOther => False
    end.

(** No stored embedding scores NaN against the query. *)
Definition scores_are_numbers (I : index_ops) (noise : nat -> float) (sc : scorer) (o : sopts) (s : store I)
  (q : option (list N)) : Prop :=
  forall w id e, query_used noise (st_policy I s) (st_dim I s) q w -> get_by_id I s id = Ok e ->
                 not_nan (score sc o w (without_acl e)).
