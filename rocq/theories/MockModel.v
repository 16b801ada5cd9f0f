(** Model of MockEmbedder, /repo/pkg/semantic-router/embedder.go:15-57: a text is the list of
    its code points. The components are exact fractions: the rounding of float32(int32) is
    left out, float32(0x7fffffff) is 2^31. *)
From Coq Require Import List ZArith QArith.
Import ListNotations.
Open Scope Z_scope.

(** hash*31 + c in int64 arithmetic, embedder.go:26-29. *)
Definition wrap64 (z : Z) : Z := (z + 2 ^ 63) mod 2 ^ 64 - 2 ^ 63.
Definition text_hash (text : list Z) : Z := fold_left (fun h c => wrap64 (h * 31 + c)) text 0.
(** int32(seed) of a uint32. *)
Definition to_int32 (s : Z) : Z := if Z.ltb s (2 ^ 31) then s else s - 2 ^ 32.
(** The loop, embedder.go:31-36. *)
Definition component (s : Z) : Q := (inject_Z (to_int32 s) / inject_Z (2 ^ 31) * 2)%Q.
Fixpoint mock_loop (n : nat) (seed : Z) : list Q :=
  match n with
  | O => []
  | S n => let s := (seed * 1664525 + 1013904223) mod 2 ^ 32 in component s :: mock_loop n s
  end.
(** Embed, embedder.go:22-39. *)
Definition mock_embed (dims : nat) (text : list Z) : list Q := mock_loop dims (text_hash text mod 2 ^ 32).
(** EmbedBatch, embedder.go:42-52: no error is possible. *)
Definition mock_embed_batch (dims : nat) (texts : list (list Z)) : list (list Q) := map (mock_embed dims) texts.
