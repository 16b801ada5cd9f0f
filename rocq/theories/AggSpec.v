(** What an aggregation is computed from. *)
From Coq Require Import String List NArith ZArith Bool.
From Verif Require Import Base Floats64 StoreModel SearchModel SqlModel FilterSpec AggModel.
Import ListNotations.
Open Scope string_scope.
Open Scope list_scope.

Definition field_of (k : string) (e : embedding) : option string := match e_meta e with Some m => assoc k m | None => None end.
(** The stored embeddings in the collection (if one is named) whose fields equal the
    filter values, which are texts. *)
Definition selected (coll : string) (fs : list (string * string)) (e : embedding) : Prop :=
  (coll = "" \/ e_coll e = coll) /\ forall k x, In (k, x) fs -> field_of k e = Some x.
(** [es] lists each stored embedding satisfying [P] once. *)
Definition lists_exactly (I : index_ops) (s : store I) (P : embedding -> Prop) (es : list embedding) : Prop :=
  NoDup (map e_id es) /\ forall e, In e es <-> get_by_id I s (e_id e) = Ok e /\ P e.
Definition all_have_metadata (I : index_ops) (s : store I) : Prop := forall id e, get_by_id I s id = Ok e -> e_meta e <> None.
Definition text_filters (fs : list (string * string)) : list (string * gval) := map (fun kv => (fst kv, GStr (snd kv))) fs.
(** The group of an embedding. *)
Definition group_of (ks : list string) (e : embedding) : list (option string) := map (fun k => field_of k e) ks.
(** Number of embeddings in the group. *)
Definition group_size (ks : list string) (es : list embedding) (g : list (option string)) (n : nat) : Prop :=
  exists l, NoDup (map e_id l) /\ length l = n /\ forall e, In e l <-> In e es /\ group_of ks e = g.
(** A group passes HAVING: every named column equals the value. *)
Definition passes (hs : list (agg_col * gval)) (g : list (option string)) (n : nat) : Prop :=
  forall c v, In (c, v) hs ->
  match c with
  | ColCount => v = GInt (Z.of_nat n) \/ v = GBool (Nat.eqb n 1) /\ n <= 1 \/ exists y, v = GFloat y /\ feq (f64_of_Z (Z.of_nat n)) y = true
  | ColKey i => exists x, nth_error g i = Some (Some x) /\ v = GStr x
  end.
(** ORDER BY .. DESC: larger counts first, or larger texts first and missing ones last. *)
Definition ranks_before (c : agg_col) (a b : list (option string) * nat) : bool :=
  match c with
  | ColCount => Nat.leb (S (snd b)) (snd a)
  | ColKey i =>
      match nth i (fst a) None, nth i (fst b) None with
      | Some x, Some y => match String.compare x y with Gt => true | _ => false end
      | Some _, None => true
      | None, _ => false
      end
  end.
(** How a group key is shown: a missing one as nil, a numeral as its number. *)
Inductive shown (Nm : numerals) : option string -> agg_key -> Prop :=
| shown_missing : shown Nm None KNull
| shown_number a x : go_num Nm a = Some x -> shown Nm (Some a) (KNumber x)
| shown_text a : go_num Nm a = None -> shown Nm (Some a) (KText a).
(** A result row for group [g] of [n] embeddings. *)
Definition group_result (Nm : numerals) (ks : list string) (gn : list (option string) * nat) (r : agg_result) : Prop :=
  map fst (a_keys r) = ks /\ Forall2 (shown Nm) (fst gn) (map snd (a_keys r)) /\ a_count r = snd gn /\ a_value r = VReal (f64_of_Z (Z.of_nat (snd gn))).
(** The numeric readings of a field. *)
Definition readings (Nm : numerals) (k : string) (es : list embedding) : list float :=
  map (fun e => match field_of k e with Some a => sql_real Nm a | None => f_zero end) es.
