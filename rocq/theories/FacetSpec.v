(** What facets mean, and which facets the SQL text expresses. *)
From Coq Require Import String Ascii List NArith ZArith Bool.
From Verif Require Import Base Floats64 StoreModel SearchModel SearchSpec SqlModel FilterModel FilterSpec FacetModel.
Import ListNotations.
Open Scope string_scope.
Open Scope list_scope.

(** Equal up to the case of ASCII letters. *)
Inductive same_letters : string -> string -> Prop :=
| sl_end : same_letters "" ""
| sl_char c d p t : ascii_lower c = ascii_lower d -> same_letters p t -> same_letters (String c p) (String d t).

Section Spec.
Variable N : numerals.
(** A facet that imposes no condition at all. *)
Fixpoint vacuous (f : facet) : Prop :=
  match f with
  | FEquals vs | FIn vs => vs = []
  | FRange mn mx => mn = GNil /\ mx = GNil
  | FContains p | FPrefix p => p = ""
  | FExists => False
  | FNested _ l => (fix all (l : list facet) : Prop := match l with [] => True | x :: l' => vacuous x /\ all l' end) l
  | FOther => True
  end.
(** The facet [f] on field [k] accepts the metadata [m]. *)
Fixpoint accepts (k : string) (f : facet) (m : smap) {struct f} : Prop :=
  let all := fix all (l : list facet) : Prop := match l with [] => True | x :: l' => accepts k x m /\ all l' end in
  let some := fix some (l : list facet) : Prop := match l with [] => False | x :: l' => accepts k x m \/ some l' end in
  match f with
  | FEquals (v :: _) => exists a, assoc k m = Some a /\ equals N a v
  | FIn (v :: vs) => exists a w, assoc k m = Some a /\ In w (v :: vs) /\ equals N a w
  | FRange mn mx => (mn = GNil \/ exists a, assoc k m = Some a /\ compares N CGE a mn) /\
                    (mx = GNil \/ exists a, assoc k m = Some a /\ compares N CLE a mx)
  | FContains p => p = "" \/ exists u w v, assoc k m = Some (u ++ w ++ v)%string /\ same_letters p w
  | FPrefix p => p = "" \/ exists w v, assoc k m = Some (w ++ v)%string /\ same_letters p w
  | FExists => exists a, assoc k m = Some a
  | FNested LAnd l => all l
  | FNested LOr l => some l
  | FNested LNot l => ~ all l
  | FEquals [] | FIn [] | FOther => True
  end.

Definition no_wildcards (p : string) : Prop := has_char (fun c => Ascii.eqb c "%" || Ascii.eqb c "_") p = false.
Definition good_bound (k : string) (v : gval) (m : smap) : Prop := v = GNil \/ (number_of N v <> None /\ numeric_field N k m).
(** Facets the text expresses: texts compared for equality, numbers in ranges, no
    wildcards in patterns, every nested facet imposes a condition, and a negated
    group only on a field that is present. *)
Fixpoint plain_facet (k : string) (f : facet) (m : smap) {struct f} : Prop :=
  let all := fix all (l : list facet) : Prop := match l with [] => True | x :: l' => (plain_facet k x m /\ ~ vacuous x) /\ all l' end in
  match f with
  | FEquals (v :: _) => is_text v
  | FIn vs => Forall is_text vs
  | FRange mn mx => good_bound k mn m /\ good_bound k mx m
  | FContains p | FPrefix p => no_wildcards p
  | FNested op l => l <> [] /\ all l /\ (op = LNot -> assoc k m <> None)
  | _ => True
  end.
(** A facet whose outermost part is an OR group of several alternatives. *)
Definition or_group (f : facet) : Prop := match f with FNested LOr (_ :: _ :: _) => True | _ => False end.

End Spec.

(** [n] stored embeddings have the value [v] in field [k]. *)
Definition counted (I : index_ops) (s : store I) (k v : string) (n : nat) : Prop :=
  exists ids, NoDup ids /\ length ids = n /\
    forall id, In id ids <-> exists e m, get_by_id I s id = Ok e /\ e_meta e = Some m /\ assoc k m = Some v.
(** At most [n] stored embeddings are in the collection. *)
Definition at_most (I : index_ops) (s : store I) (o : sopts) (n : nat) : Prop :=
  forall ids, NoDup ids -> (forall id, In id ids -> exists e, get_by_id I s id = Ok e /\ in_collection o e) -> length ids <= n.
(** Every facet accepts the metadata. *)
Definition accepts_all (N : numerals) (fs : list (string * facet)) (m : smap) : Prop :=
  Forall (fun kf => accepts N (fst kf) (snd kf) m) fs.
Definition more (a b : string * nat) : bool := Nat.ltb (snd b) (snd a).
