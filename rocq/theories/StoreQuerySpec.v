(** Vocabulary for the reading side of the store (C10, C69, C70). *)
From Coq Require Import String List NArith ZArith Bool.
From Verif Require Import Base StoreModel.
Import ListNotations.
Open Scope string_scope.

(** Listings by document or type leave collection and access list empty. *)
Definition blank (e : embedding) : embedding :=
  {| e_id := e_id e; e_collid := 0; e_coll := ""; e_vec := e_vec e; e_content := e_content e; e_doc := e_doc e;
     e_meta := e_meta e; e_acl := [] |}.

Section S.
Variable I : index_ops.
(** [es] lists exactly the stored embeddings satisfying [P], each once. *)
Definition lists_blank (s : store I) (P : embedding -> Prop) (es : list embedding) : Prop :=
  NoDup (map e_id es) /\ forall e, In e es <-> exists id e0, get_by_id I s id = Ok e0 /\ P e0 /\ e = blank e0.
(** [n] stored embeddings satisfy [P]. *)
Definition counts (s : store I) (P : embedding -> Prop) (n : nat) : Prop :=
  exists ids, length ids = n /\ NoDup ids /\ forall id, In id ids <-> exists e, get_by_id I s id = Ok e /\ P e.

(** What a reader of documents sees after operation [o] ended with [r]. *)
Definition doc_after (s : store I) (o : op) (r : outcome unit) (id : string) : outcome document :=
  match o, r with
  | OCreateDoc x, Ok _ | OUpdateDoc x, Ok _ => if String.eqb (d_id x) id then Ok x else get_document I s id
  | ODeleteDoc x, Ok _ => if String.eqb x id then Err ENotFound else get_document I s id
  | OClose, _ => Err EClosed
  | _, _ => get_document I s id
  end.
End S.
Notation "f =1= g" := (forall x, f x = g x) (at level 70).
