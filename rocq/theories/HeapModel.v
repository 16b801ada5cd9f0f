(** Go's container/heap (Go standard library, src/container/heap/heap.go), used by
    /repo/pkg/index/hnsw.go:568-586, /repo/pkg/graph and /repo/pkg/core. A heap is
    the backing slice as a list. *)
From Coq Require Import List Arith Bool.
Import ListNotations.

Section Heap.
Context {A : Type}.
Variable less : A -> A -> bool.

Fixpoint set_nth (i : nat) (x : A) (l : list A) : list A :=
  match l, i with
  | [], _ => []
  | _ :: l', O => x :: l'
  | y :: l', S i' => y :: set_nth i' x l'
  end.

(** Swap(i, j). *)
Definition swap (i j : nat) (l : list A) : list A :=
  match nth_error l i, nth_error l j with
  | Some a, Some b => set_nth i b (set_nth j a l)
  | _, _ => l
  end.

(** Less(i, j). *)
Definition less_at (l : list A) (i j : nat) : bool :=
  match nth_error l i, nth_error l j with
  | Some a, Some b => less a b
  | _, _ => false
  end.

(** up: the loop stops at the root because (0-1)/2 = 0 in Go. [fuel] bounds the
    iterations; j halves each time. *)
Fixpoint up (fuel j : nat) (l : list A) : list A :=
  match fuel with
  | O => l
  | S f =>
      let i := (j - 1) / 2 in
      if Nat.eqb i j || negb (less_at l j i) then l else up f i (swap i j l)
  end.

(** down(i, n). *)
Fixpoint down (fuel i n : nat) (l : list A) : list A :=
  match fuel with
  | O => l
  | S f =>
      let j1 := 2 * i + 1 in
      if Nat.leb n j1 then l
      else
        let j2 := j1 + 1 in
        let j := if Nat.ltb j2 n && less_at l j2 j1 then j2 else j1 in
        if negb (less_at l j i) then l else down f j n (swap i j l)
  end.

(** heap.Push. *)
Definition heap_push (x : A) (l : list A) : list A :=
  let l' := l ++ [x] in up (length l') (length l' - 1) l'.

(** heap.Pop: swap the root to the end, sift down, remove the last. *)
Definition heap_pop (l : list A) : option (A * list A) :=
  match l with
  | [] => None
  | _ =>
      let n := length l - 1 in
      let l' := down (length l) 0 n (swap 0 n l) in
      match nth_error l' n with
      | Some x => Some (x, firstn n l')
      | None => None
      end
  end.

(** Popping until empty. *)
Fixpoint heap_drain (fuel : nat) (l : list A) : list A :=
  match fuel with
  | O => []
  | S f => match heap_pop l with None => [] | Some (x, l') => x :: heap_drain f l' end
  end.
End Heap.
