(** Layers of context around an error, from the outside to the inside: the operations of the
    store, and text around a cause. *)
From Coq Require Import List String Arith.
From Verif Require Import ErrModel.
Import ListNotations.
Local Open Scope string_scope.

Inductive layer := InOp (op : string) | Around (before after : string).
(** The error a caller gets; the layers are new values, numbered from [n]. *)
Fixpoint layered (n : nat) (ls : list layer) (cause : err) : err :=
  match ls with
  | [] => cause
  | InOp op :: r => Store n op (Some (layered (S n) r cause))
  | Around b a :: r => Errorf n b (layered (S n) r cause) a
  end.
(** Its text. *)
Fixpoint layered_text (ls : list layer) (cause : string) : string :=
  match ls with
  | [] => cause
  | InOp "" :: r => "vectorstore: " ++ layered_text r cause
  | InOp op :: r => "vectorstore: " ++ op ++ ": " ++ layered_text r cause
  | Around b a :: r => b ++ layered_text r cause ++ a
  end.
(** The errors in the chain of [e]: [e] and what it wraps, however deep. *)
Inductive in_chain : err -> err -> Prop :=
| chain_self e : in_chain e e
| chain_store e i op x : in_chain e x -> in_chain e (Store i op (Some x))
| chain_errorf e i b x a : in_chain e x -> in_chain e (Errorf i b x a).
