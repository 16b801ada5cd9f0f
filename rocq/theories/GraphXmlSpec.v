(** What a user of the GraphML and GEXF export and import relies on. *)
From Coq Require Import String List NArith ZArith Bool.
From Coq Require Import Floats.SpecFloat.
From Verif Require Import Base Floats64 StoreModel GraphModel GraphSpec GraphExportSpec.
Import ListNotations.
Open Scope string_scope.
Open Scope list_scope.

(** All text of the graph survives XML, and JSON inside XML. *)
Definition kept_props (jtext : string -> string) (m : option smap) : Prop :=
  forall l k v, m = Some l -> In (k, v) l -> jtext k = k /\ jtext v = v.
Definition kept_text (xtext jtext : string -> string) (g : gdb) : Prop :=
  (forall n, In n (g_nodes g) -> xtext (n_id n) = n_id n /\ xtext (n_content n) = n_content n /\ xtext (n_type n) = n_type n /\ kept_props jtext (n_props n)) /\
  (forall e, In e (g_edges g) -> xtext (ge_id e) = ge_id e /\ xtext (ge_from e) = ge_from e /\ xtext (ge_to e) = ge_to e /\ xtext (ge_type e) = ge_type e /\ kept_props jtext (ge_props e)).
Definition props_or_empty (m : option smap) : smap := match m with Some l => l | None => [] end.
(** A node as it comes back: its vector if all its numbers are finite, else three zeros;
    absent properties come back as present and empty. *)
Definition node_back (n n' : gnode) : Prop :=
  n_id n' = n_id n /\ n_content n' = n_content n /\ n_type n' = n_type n /\ n_props n' = Some (props_or_empty (n_props n)) /\
  (finite_vector (n_vec n) -> n_vec n' = n_vec n) /\ (~ finite_vector (n_vec n) -> n_vec n' = [0; 0; 0]%N).
(** [k] is the integer nearest to [num] / [den], the even one of two. *)
Definition nearest_integer (num den k : Z) : Prop :=
  (Z.abs (2 * (num - k * den)) <= den)%Z /\ (Z.abs (2 * (num - k * den)) = den -> Z.even k = true)%Z.
(** [x] is the float64 nearest to the six-decimal text of [w]. *)
Definition six_decimals (w x : float) : Prop :=
  match w with
  | S754_finite s m e =>
      exists num den k, (0 < den)%Z /\ (num * 2 ^ Z.max 0 (- e) = Z.pos m * 2 ^ Z.max 0 e * 1000000 * den)%Z /\
        nearest_integer num den k /\
        ((k = 0%Z /\ x = S754_zero s) \/ exists p, k = Z.pos p /\ x = SFdiv 53 1024 (S754_finite s p 0) (S754_finite false 1000000 0))
  | _ => x = w
  end.
(** An edge as it comes back from GraphML: weight with six decimals, and 1 if that is 0; no
    vector. *)
Definition edge_back_ml (e e' : gedge) : Prop :=
  ge_id e' = ge_id e /\ ge_from e' = ge_from e /\ ge_to e' = ge_to e /\ ge_type e' = ge_type e /\ ge_vec e' = [] /\
  ge_props e' = Some (props_or_empty (ge_props e)) /\
  exists x, six_decimals (ge_weight e) x /\ ge_weight e' = if feq x f_zero then f64_of_Z 1 else x.
(** And from GEXF: weight as it was, no properties, no vector. *)
Definition edge_back_gexf (e e' : gedge) : Prop :=
  ge_id e' = ge_id e /\ ge_from e' = ge_from e /\ ge_to e' = ge_to e /\ ge_type e' = ge_type e /\ ge_weight e' = ge_weight e /\
  ge_props e' = Some [] /\ ge_vec e' = [].
