(** What the memory theorems are stated in terms of. *)
From Coq Require Import String List NArith ZArith Bool Sorted.
From Verif Require Import Base Floats64 EncodingSpec StoreModel MemModel.
Import ListNotations.
Open Scope string_scope.
Open Scope list_scope.

(** Where a memory lives. *)
Inductive place := PGlobal (ns : string) | PUser (user ns : string) | PSession (session ns : string).
Definition scope_name (p : place) : string := match p with PGlobal _ => "global" | PUser _ _ => "user" | PSession _ _ => "session" end.
Definition namespace (p : place) : string := match p with PGlobal n | PUser _ n | PSession _ n => n end.
Definition owner (p : place) : string := match p with PGlobal _ => "" | PUser u _ => u | PSession s _ => s end.
Definition no_colon (s : string) : Prop := forall a b, s <> (a ++ ":" ++ b)%string.

Section Address.
Variables (trim lower : string -> string).
(** The place a request addresses, after normalisation. *)
Definition addressed (scope user session ns : string) (p : place) : Prop :=
  ((trim ns = "" /\ namespace p = "default") \/ (trim ns <> "" /\ namespace p = trim ns)) /\
  match p with
  | PGlobal _ => lower (trim scope) = "global" \/ (lower (trim scope) = "" /\ trim session = "" /\ trim user = "")
  | PUser u _ => u = user /\ trim user <> "" /\ (lower (trim scope) = "user" \/ (lower (trim scope) = "" /\ trim session = ""))
  | PSession s _ => s = session /\ trim session <> "" /\ (lower (trim scope) = "session" \/ lower (trim scope) = "")
  end.

(** The vector the embedder gave for a text, if there is an embedder. *)
Definition embedded (ev : menv) (t : string) : option (list N) := match mv_embed ev with Some f => f t | None => None end.
(** A memory as the caller left it: [it_written] is the time of the last save or update.
    A chat message that was never saved as a memory has no place. *)
Record item := { it_place : option place; it_role : string; it_content : string; it_importance : float; it_ttl : Z; it_extra : string -> option string;
  it_vec : option (list N); it_created : Z; it_written : Z }.
Definition items := string -> option item.
Definition with_item (st : items) (id : string) (i : option item) : items := fun x => if string_dec x id then i else st x.

(** The caller's metadata without the keys the library uses itself. *)
Definition own_keys : list string := ["kind"; "scope"; "namespace"; "importance"; "ttl_seconds"; "expires_at"].
Definition given (m : smap) (k : string) : option string := if in_dec string_dec k own_keys then None else assoc k m.

(** How one call changes the memories. *)
Definition changes_items (st : items) (ev : menv) (c : mcall) (o : outcome unit) (st' : items) : Prop :=
  match c, o with
  | MSave q, Ok _ =>
      exists p, addressed (sv_scope q) (sv_user q) (sv_session q) (sv_ns q) p /\
      forall x, st' x = with_item st (sv_id q) (Some {|
        it_place := Some p; it_role := if string_dec (trim (sv_role q)) "" then "user" else sv_role q; it_content := sv_content q;
        it_importance := sv_importance q; it_ttl := sv_ttl q; it_extra := given (sv_meta q); it_vec := embedded ev (sv_content q);
        it_created := match st (sv_id q) with Some i => it_created i | None => mv_now ev end; it_written := mv_now ev |}) x
  | MUpdate u, Ok _ =>
      exists i, st (up_id u) = Some i /\
      forall x, st' x = with_item st (up_id u) (Some {|
        it_place := it_place i; it_role := it_role i;
        it_content := match up_content u with Some t => t | None => it_content i end;
        it_importance := match up_importance u with Some f => f | None => it_importance i end;
        it_ttl := match up_ttl u with Some t => t | None => it_ttl i end;
        it_extra := fun k => match given (up_meta u) k with Some v => Some v | None => it_extra i k end;
        it_vec := match up_content u with Some t => embedded ev t | None => it_vec i end;
        it_created := it_created i; it_written := mv_now ev |}) x
  | MDelete id, Ok _ => st id <> None /\ forall x, st' x = with_item st id None x
  | MDelete id, _ => (forall x, st' x = st x) \/ (forall x, st' x = with_item st id None x)
  | MMessage w, _ =>
      (forall x, st' x = st x) \/
      (st (me_id w) = None /\ forall x, st' x = with_item st (me_id w) (Some {|
        it_place := None; it_role := me_role w; it_content := me_content w; it_importance := f_zero; it_ttl := 0; it_extra := fun _ => None; it_vec := None;
        it_created := me_time w; it_written := me_time w |}) x)
  | _, _ => forall x, st' x = st x
  end.
(** The memories after a history of calls with the given outcomes. *)
Inductive leads : list (menv * mcall) -> list (outcome unit) -> items -> Prop :=
| leads_nil : leads [] [] (fun _ => None)
| leads_call : forall h os st ev c o st', leads h os st -> changes_items st ev c o st' -> leads (h ++ [(ev, c)]) (os ++ [o]) st'.
End Address.

(** A record that shows an item. [mr_expires] has whole seconds; a time to live of at
    most 292 years does not overflow. *)
Definition shows (i : item) (r : mrec) : Prop :=
  mr_role r = it_role i /\ mr_content r = it_content i /\ mr_importance r = it_importance i /\ mr_ttl r = it_ttl i /\
  (forall k, assoc k (mr_extra r) = it_extra i k) /\ mr_time r = it_created i /\
  mr_scope r = match it_place i with Some p => scope_name p | None => "" end /\
  mr_ns r = match it_place i with Some p => namespace p | None => "" end /\
  ((it_ttl i <= 0)%Z -> mr_expires r = None) /\
  ((0 < it_ttl i)%Z -> exists e, mr_expires r = Some e /\ (e * 1000000000 <= it_written i + it_ttl i * 1000000000)%Z /\
     ((it_ttl i * 1000000000 < 2 ^ 63)%Z -> (it_written i + it_ttl i * 1000000000 < (e + 1) * 1000000000)%Z)).
(** Its time to live is over. *)
Definition over (now : Z) (i : item) : Prop := (0 < it_ttl i)%Z /\ (it_written i + it_ttl i * 1000000000 < now)%Z.

(** Chat sessions written by other parts of the library are not memory buckets. *)
Definition chats_apart (h : list (menv * mcall)) : Prop :=
  forall ev w, In (ev, MMessage w) h -> forall s, me_bucket w <> ("memory:" ++ s)%string.

(** The memories of one place that have a vector, once each. *)
Definition embedded_at (st : items) (p : place) (l : list (string * item)) : Prop :=
  NoDup (map fst l) /\ (forall id i, In (id, i) l <-> st id = Some i /\ it_place i = Some p /\ it_vec i <> None).
Definition vec_of (i : item) : list N := match it_vec i with Some v => v | None => [] end.
Definition nearer (sim : list N -> list N -> float) (q : list N) (a b : string * item) : bool :=
  fgt (f32_of_f64 (sim q (vec_of (snd a)))) (f32_of_f64 (sim q (vec_of (snd b)))).
(** All owners are free of colons. *)
Definition plain_owners (st : items) : Prop := forall id i p, st id = Some i -> it_place i = Some p -> no_colon (owner p).
Definition float_vectors (st : items) : Prop := forall id i v, st id = Some i -> it_vec i = Some v -> float32_bits v.
(** A record whose time is over. *)
Definition lapsed (now : Z) (r : mrec) : Prop := exists e, mr_expires r = Some e /\ (e * 1000000000 < now)%Z.
(** [hits] are the entries of [top] that have not lapsed, in order, the i-th of n scoring (n-i)/n. *)
Definition ranked (now : Z) (top : list (string * item)) (hits : list mhit) : Prop :=
  exists idx, StronglySorted lt idx /\
    Forall2 (fun i h => exists it, nth_error top i = Some (mr_id (fst h), it) /\ shows it (fst h) /\ ~ lapsed now (fst h) /\
                        snd h = f64_div (f64_of_Z (Z.of_nat (length top - i))) (f64_of_Z (Z.of_nat (length top)))) idx hits /\
    (forall i id it, nth_error top i = Some (id, it) -> ~ In i idx ->
       (0 < it_ttl it)%Z /\ ((it_ttl it * 1000000000 < 2 ^ 63)%Z -> (it_written it + it_ttl it * 1000000000 < now + 1000000000)%Z)).

(** * Lexical search *)
(** The rows of the index's answer that are in the bucket, best first. *)
Definition listed (db : memdb) (b : string) (ans : list (nat * float)) : list (mem * float) :=
  flat_map (fun pr => match nth_error (md_rows db) (fst pr) with
                      | Some w => if string_dec (me_bucket w) b then [(w, snd pr)] else []
                      | None => [] end) ans.
(** 1/(1+|rank|), weighted 1 - idx/20 but at least 0.8 for the idx-th query. *)
Definition text_score (idx : nat) (rank : float) : float :=
  let weight := f64_sub (f64_of_Z 1) (f64_mul (f64_of_Z (Z.of_nat idx)) (f64_div (f64_of_Z 5) (f64_of_Z 100))) in
  let floor := f64_div (f64_of_Z 8) (f64_of_Z 10) in
  f64_mul (f64_div (f64_of_Z 1) (f64_add (f64_of_Z 1) (SpecFloat.SFabs rank))) (if flt weight floor then floor else weight).
(** Row [w] is among the first 4k of the answer to the idx-th query. *)
Definition text_match (fts : string -> list string -> option (list (nat * float))) (db : memdb) (b : string) (k : nat) (qs : list string) (w : mem) (s : float) : Prop :=
  exists idx q ans j rank, nth_error qs idx = Some q /\ fts q (map me_content (md_rows db)) = Some ans /\
    j < k * 4 /\ nth_error (listed db b ans) j = Some (w, rank) /\ s = text_score idx rank.
Definition higher (a b : mhit) : bool :=
  fgt (snd a) (snd b) || (feq (snd a) (snd b) && String.ltb (mr_id (fst a)) (mr_id (fst b))).
