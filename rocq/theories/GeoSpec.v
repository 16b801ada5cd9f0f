(** What a user of GeoIndex relies on, without the model's helper functions. *)
From Coq Require Import String List NArith ZArith Bool Reals.
From Coq Require Import Floats.SpecFloat.
From Flocq Require Import Core.Core.
From Verif Require Import Base Floats64 FloatReal GeoModel.
Import ListNotations.
Open Scope string_scope.
Open Scope list_scope.
Open Scope nat_scope.

(** A float64 (a spec_float may also be something no float64 can hold). *)
Definition float64 (f : float) : Prop := valid_binary 53 1024 f = true.
Definition float64_coord (c : coord) : Prop := float64 (c_lat c) /\ float64 (c_lng c).
Definition between (lo x hi : float) : Prop := fle lo x = true /\ fle x hi = true.
Definition on_earth (c : coord) : Prop :=
  between (f64_of_Z (-90)) (c_lat c) (f64_of_Z 90) /\ between (f64_of_Z (-180)) (c_lng c) (f64_of_Z 180).
Definition in_the_box (b : bbox) (c : coord) : Prop :=
  between (bb_min_lat b) (c_lat c) (bb_max_lat b) /\ between (bb_min_lng b) (c_lng c) (bb_max_lng b).
Definition acceptable_point (p : gpoint) : Prop := gp_id p <> "" /\ on_earth (gp_at p).

(** [p] is a point of the index after [ops]: the last accepted insertion of its id, not
    followed by a deletion of the id or a Clear. *)
Definition current (ops : list geo_op) (p : gpoint) : Prop :=
  exists l1 l2, ops = l1 ++ GInsert p :: l2 /\ acceptable_point p /\
    forall o, In o l2 -> o <> GClear /\ o <> GDelete (gp_id p) /\ forall q, o = GInsert q -> acceptable_point q -> gp_id q <> gp_id p.
(** No id is inserted while the index holds it: points are moved by deleting them first. *)
Definition careful (ops : list geo_op) : Prop :=
  forall l1 p l2, ops = l1 ++ GInsert p :: l2 -> acceptable_point p -> forall q, current l1 q -> gp_id q <> gp_id p.
Definition float64_ops (ops : list geo_op) : Prop := forall p, In (GInsert p) ops -> float64_coord (gp_at p).
Definition float64_box (b : bbox) : Prop :=
  float64 (bb_min_lat b) /\ float64 (bb_max_lat b) /\ float64 (bb_min_lng b) /\ float64 (bb_max_lng b).

(** The index after a history. *)
Definition geo_run (wild : float -> Z) (ops : list geo_op) : geo := fold_left (geo_step wild) ops new_geo.

(** [z] is the number of whole tenths of a degree in [v], by float64 division. *)
Definition tenths (v : float) (z : Z) : Prop := exists r, fin (f64_div v (f64_div (f64_of_Z 1) (f64_of_Z 10))) r /\ z = Ztrunc r.
(** [n] is the number of tenths of a degree, rounded up, that [km] kilometres span at 111
    kilometres per degree, by float64 division. *)
Definition tenths_spanned (km : float) (n : Z) : Prop :=
  exists r, fin (f64_div (f64_div km (f64_of_Z 111)) (f64_div (f64_of_Z 1) (f64_of_Z 10))) r /\ n = Zceil r.
(** The square of cells that a search of [n] cells around [c] looks at. *)
Definition in_window (n : Z) (c p : coord) : Prop :=
  exists x y x' y', tenths (c_lng c) x /\ tenths (c_lat c) y /\ tenths (c_lng p) x' /\ tenths (c_lat p) y' /\ (Z.abs (x' - x) <= n)%Z /\ (Z.abs (y' - y) <= n)%Z.

(** The great-circle distance in kilometres between two places given in degrees. *)
Definition radians (x : R) : R := (x * PI / 180)%R.
Definition great_circle (lat1 lng1 lat2 lng2 : R) : R :=
  (let s := sin (radians (lat2 - lat1) / 2) in
   let t := sin (radians (lng2 - lng1) / 2) in
   2 * 6371 * asin (sqrt (s * s + cos (radians lat1) * cos (radians lat2) * (t * t))))%R.
Definition places (c : coord) (lat lng : R) : Prop := fin (c_lat c) lat /\ fin (c_lng c) lng.

(** The sides of a polygon, the last one leading back to the first corner. *)
Definition sides (poly : list coord) : list (coord * coord) := List.combine poly (tl poly ++ firstn 1 poly).
(** A ray from [p] towards growing latitude meets the side (half open in longitude); the
    latitude of the meeting point is interpolated in float64 arithmetic. *)
Definition ray_meets (p : coord) (s : coord * coord) : Prop :=
  let '(a, b) := s in
  ((flt (c_lng a) (c_lng p) = true /\ fle (c_lng p) (c_lng b) = true) \/ (flt (c_lng b) (c_lng p) = true /\ fle (c_lng p) (c_lng a) = true)) /\
  (fle (c_lat p) (c_lat a) = true \/ fle (c_lat p) (c_lat b) = true) /\
  (feq (c_lat a) (c_lat b) = true \/
   fle (c_lat p) (f64_add (f64_div (f64_mul (f64_sub (c_lng p) (c_lng a)) (f64_sub (c_lat b) (c_lat a))) (f64_sub (c_lng b) (c_lng a))) (c_lat a)) = true).
(** The number of elements that satisfy a property. *)
Inductive how_many {A} (P : A -> Prop) : list A -> nat -> Prop :=
| hm_nil : how_many P [] 0
| hm_yes x l n : P x -> how_many P l n -> how_many P (x :: l) (S n)
| hm_no x l n : ~ P x -> how_many P l n -> how_many P (x :: l) n.
Definition inside_polygon (poly : list coord) (p : coord) : Prop := exists n, how_many (ray_meets p) (sides poly) n /\ Nat.odd n = true.
(** [p] lies between the extreme corners. *)
Definition within_extent (poly : list coord) (p : coord) : Prop :=
  (exists a, In a poly /\ fle (c_lat a) (c_lat p) = true) /\ (exists a, In a poly /\ fle (c_lat p) (c_lat a) = true) /\
  (exists a, In a poly /\ fle (c_lng a) (c_lng p) = true) /\ (exists a, In a poly /\ fle (c_lng p) (c_lng a) = true).
Definition corners_are_numbers (poly : list coord) : Prop := forall a, In a poly -> not_nan (c_lat a) /\ not_nan (c_lng a).
