(** Model of the errors of the store, /repo/pkg/core/errors.go, of Go's errors.Is and
    errors.Unwrap, and of the errors made with fmt.Errorf around them. An error value has an
    identity: errors.New, &StoreError and fmt.Errorf each make a new one, and == compares
    identities. *)
From Coq Require Import List String Arith Bool.
Import ListNotations.
Local Open Scope string_scope.

(** errors.New; StoreError, errors.go:30-33, with its possibly nil Err; fmt.Errorf with one
    %w, the text before and after it. *)
Inductive err :=
| New (id : nat) (msg : string)
| Store (id : nat) (op : string) (e : option err)
| Errorf (id : nat) (before : string) (e : err) (after : string).

Definition ident (e : err) : nat := match e with New i _ | Store i _ _ | Errorf i _ _ _ => i end.

(** Error, errors.go:36-41; %v of a nil error is "<nil>". *)
Fixpoint error_text (e : err) : string :=
  match e with
  | New _ m => m
  | Store _ op e' =>
      let t := match e' with None => "<nil>" | Some x => error_text x end in
      if String.eqb op "" then "vectorstore: " ++ t else "vectorstore: " ++ op ++ ": " ++ t
  | Errorf _ b x a => b ++ error_text x ++ a
  end.

(** Unwrap, errors.go:44-46, and that of fmt.Errorf. *)
Definition unwrap (e : err) : option err :=
  match e with New _ _ => None | Store _ _ e' => e' | Errorf _ _ x _ => Some x end.

(** errors.Is of the standard library with StoreError.Is, errors.go:49-51: compare, ask the
    Is method, unwrap. *)
Fixpoint errors_is (e target : err) : bool :=
  Nat.eqb (ident e) (ident target) ||
  match e with
  | New _ _ => false
  | Store _ _ e' =>
      match e' with None => false | Some x => errors_is x target end ||
      match e' with None => false | Some x => errors_is x target end
  | Errorf _ _ x _ => errors_is x target
  end.

(** wrapError, errors.go:54-58; [id] is the identity of the new value. *)
Definition wrap_error (id : nat) (op : string) (e : option err) : option err :=
  match e with None => None | Some _ => Some (Store id op e) end.

(** The package's errors, errors.go:9-27, and of /repo/pkg/cortexdb/embedder.go:27-33. *)
Definition ErrInvalidDimension := New 1 "invalid vector dimension".
Definition ErrNotFound := New 2 "embedding not found".
Definition ErrInvalidVector := New 3 "invalid vector data".
Definition ErrStoreClosed := New 4 "store is closed".
Definition ErrInvalidConfig := New 5 "invalid configuration".
Definition ErrEmptyQuery := New 6 "empty query vector".
Definition ErrEmbedderNotConfigured := New 7 "cortexdb: embedder not configured, use WithEmbedder option or call vector methods directly".
Definition ErrEmptyText := New 8 "cortexdb: empty text provided".
Definition ErrEmbeddingFailed := New 9 "cortexdb: embedding failed".

(** fmt.Errorf("%w: %v", ErrEmbeddingFailed, err): /repo/pkg/cortexdb/cortexdb.go:241, 295,
    331, 365, 389, graphrag.go:136, 372, memory_api.go:254. *)
Definition embedding_failed (id : nat) (e : err) : err := Errorf id "" ErrEmbeddingFailed (": " ++ error_text e).

(** What the callers of the embedder return, same lines: the error of the embedder, or what
    [rest] returns for the vector. *)
Definition with_embedding {V T} (id : nat) (embedded : V + err) (rest : V -> T + err) : T + err :=
  match embedded with inr e => inr (embedding_failed id e) | inl v => rest v end.
