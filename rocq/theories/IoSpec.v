(** What Dump and Load are expected to do. *)
From Coq Require Import String List NArith ZArith Bool.
From Verif Require Import Base Floats64 EncodingModel EncodingSpec StoreModel StoreSpec SearchModel SqlModel FilterModel FilterSpec IoModel.
Import ListNotations.
Open Scope string_scope.
Open Scope list_scope.

(** What a dump carries of an embedding: everything but the access list, and the vector
    only if asked for; empty metadata as none. *)
Definition exported (keep : bool) (e : embedding) : embedding :=
  {| e_id := e_id e; e_collid := 0; e_coll := e_coll e; e_vec := if keep then e_vec e else None; e_content := e_content e; e_doc := e_doc e;
     e_meta := match e_meta e with Some [] => None | m => m end; e_acl := [] |}.
(** All its texts are valid UTF-8. *)
Definition valid_texts (utf8 : string -> string) (e : embedding) : Prop :=
  utf8 (e_id e) = e_id e /\ utf8 (e_coll e) = e_coll e /\ utf8 (e_content e) = e_content e /\ utf8 (e_doc e) = e_doc e /\
  forall m k x, e_meta e = Some m -> In (k, x) m -> utf8 k = k /\ utf8 x = x.
(** All its numbers are finite. *)
Definition finite_vector (e : embedding) : Prop := forall v n, e_vec e = Some v -> In n v -> finite_bits n = true.

(** The embeddings a dump is about: all, or those satisfying the filter. *)
Definition chosen (Nm : numerals) (f : option fexpr) (e : embedding) : Prop :=
  match f with None => True | Some x => exists m, e_meta e = Some m /\ satisfies Nm x m end.

(** The items of a dump, in either JSON format. *)
Definition items_of (d : dumped) : list embedding := match d with DDoc l => l | DLines l => l | DCsv _ => [] end.
(** What Load is given when a dump is read back. *)
Definition as_input (d : dumped) : input :=
  {| as_doc := match d with DDoc l => Some (map Some l) | _ => None end; as_lines := match d with DLines l => map JFits l | _ => [] end; as_end := JEof |}.

(** A filter the query language can express on all stored metadata (see FilterSpec.v). *)
Definition filter_plain (I : index_ops) (Nm : numerals) (s : store I) (f : option fexpr) : Prop :=
  match f with
  | None => True
  | Some x => casts_numerals Nm /\ (exists m, expressible Nm x m) /\ forall id e, get_by_id I s id = Ok e -> exists m, e_meta e = Some m /\ expressible Nm x m
  end.

