(** Model of /repo/pkg/geo/geospatial.go: GeoIndex.

    The map of points is a list with one entry per id, the grid a list with one entry per
    key.  Coordinates are float64.  The trigonometry of haversineDistance
    (geospatial.go:335-348) is not modelled: [dist] stands for it.  Points are never
    modified through the pointers kept, so entries are values.  The RWMutex makes every
    call atomic. *)
From Coq Require Import String List NArith ZArith Bool.
From Coq Require Import Floats.SpecFloat.
From Verif Require Import Base Floats64 StoreModel.
Import ListNotations.
Open Scope string_scope.
Open Scope list_scope.

(** Coordinate and GeoPoint, geospatial.go:27-37. *)
Record coord := { c_lat : float; c_lng : float }.
Record gpoint := { gp_id : string; gp_at : coord; gp_meta : option smap }.
(** BoundingBox, geospatial.go:46-51. *)
Record bbox := { bb_min_lat : float; bb_max_lat : float; bb_min_lng : float; bb_max_lng : float }.
(** GeoIndex, geospatial.go:54-60. *)
Record geo := { geo_points : list gpoint; geo_grid : list (Z * list gpoint) }.
(** NewGeoIndex, geospatial.go:63-69, and Clear, geospatial.go:283-288. *)
Definition new_geo : geo := {| geo_points := []; geo_grid := [] |}.
(** gridSize is the literal 0.1. *)
Definition grid_size : float := f64_div (f64_of_Z 1) (f64_of_Z 10).

(** int64(f): truncation.  Outside the range of int64, and for NaN, Go leaves the result to
    the implementation: [wild]. *)
Definition trunc (f : float) : Z :=
  match f with
  | S754_finite s m e =>
      let a := if Z.leb 0 e then Z.pos m * 2 ^ e else Z.pos m / 2 ^ (- e) in
      if s then - a else a
  | _ => 0
  end%Z.
Definition int64_max : Z := 9223372036854775807.
Section Geo.
Variable wild : float -> Z.
Definition int64_of (f : float) : Z :=
  match f with
  | S754_zero _ | S754_finite _ _ _ => if Z.leb (- int64_max - 1) (trunc f) && Z.leb (trunc f) int64_max then trunc f else wild f
  | _ => wild f
  end.
(** int64 arithmetic wraps. *)
Definition wrap (z : Z) : Z := ((z + (int64_max + 1)) mod (2 * (int64_max + 1)) - (int64_max + 1))%Z.
(** (x << 32) | (y & 0xFFFFFFFF), geospatial.go:304. *)
Definition grid_key (x y : Z) : Z := wrap (x * 4294967296 + y mod 4294967296).
(** getGridKey, geospatial.go:300-305. *)
Definition cell (v : float) : Z := int64_of (f64_div v grid_size).
Definition key_of (c : coord) : Z := grid_key (cell (c_lng c)) (cell (c_lat c)).

(** g.grid[k]; absent keys give the empty slice. *)
Fixpoint cells (g : list (Z * list gpoint)) (k : Z) : list gpoint :=
  match g with
  | [] => []
  | (k', l) :: r => if Z.eqb k' k then l else cells r k
  end.
Definition set_cells (g : list (Z * list gpoint)) (k : Z) (l : list gpoint) : list (Z * list gpoint) :=
  (k, l) :: filter (fun e => negb (Z.eqb (fst e) k)) g.
Definition drop_cells (g : list (Z * list gpoint)) (k : Z) : list (Z * list gpoint) :=
  filter (fun e => negb (Z.eqb (fst e) k)) g.

Definition point_is (id : string) (p : gpoint) : bool := String.eqb (gp_id p) id.
(** g.points[id] = &point. *)
Definition set_point (p : gpoint) (l : list gpoint) : list gpoint :=
  p :: filter (fun q => negb (point_is (gp_id p) q)) l.
(** isValidCoordinate, geospatial.go:351-354. *)
Definition f90 : float := f64_of_Z 90.
Definition f180 : float := f64_of_Z 180.
Definition valid_coord (c : coord) : bool :=
  fle (SFopp f90) (c_lat c) && fle (c_lat c) f90 && fle (SFopp f180) (c_lng c) && fle (c_lng c) f180.
(** Insert, geospatial.go:72-92. *)
Definition geo_insert (g : geo) (p : gpoint) : geo * outcome unit :=
  if String.eqb (gp_id p) "" then (g, Err EOther)
  else if negb (valid_coord (gp_at p)) then (g, Err EOther)
  else ({| geo_points := set_point p (geo_points g);
           geo_grid := set_cells (geo_grid g) (key_of (gp_at p)) (cells (geo_grid g) (key_of (gp_at p)) ++ [p]) |}, Ok tt).
(** The scan of one cell, geospatial.go:111-118: the first entry with the id is overwritten
    by the last entry, and the last entry is cut off. *)
Fixpoint index_in (id : string) (l : list gpoint) : option nat :=
  match l with
  | [] => None
  | p :: r => if point_is id p then Some 0%nat else option_map S (index_in id r)
  end.
Definition swap_out (id : string) (l : list gpoint) : list gpoint :=
  match index_in id l with
  | None => l
  | Some i => match rev l with
              | [] => l
              | z :: _ => removelast (firstn i l ++ z :: skipn (S i) l)
              end
  end.
(** Delete, geospatial.go:95-125. *)
Definition geo_delete (g : geo) (id : string) : geo * bool :=
  match find (point_is id) (geo_points g) with
  | None => (g, false)
  | Some p =>
      let k := key_of (gp_at p) in
      let l := swap_out id (cells (geo_grid g) k) in
      ({| geo_points := filter (fun q => negb (point_is id q)) (geo_points g);
          geo_grid := match l with [] => drop_cells (geo_grid g) k | _ => set_cells (geo_grid g) k l end |}, true)
  end.
(** GetPoint, geospatial.go:291-300, and Size, geospatial.go:276-280. *)
Definition geo_get (g : geo) (id : string) : option gpoint := find (point_is id) (geo_points g).
Definition geo_size (g : geo) : Z := Z.of_nat (length (geo_points g)).

(** A history of calls. *)
Inductive geo_op := GInsert (p : gpoint) | GDelete (id : string) | GClear.
Definition geo_step (g : geo) (o : geo_op) : geo :=
  match o with GInsert p => fst (geo_insert g p) | GDelete id => fst (geo_delete g id) | GClear => new_geo end.

(** for x := a; x <= b; x++ *)
Definition zrange (a b : Z) : list Z := map (fun i => (a + Z.of_nat i)%Z) (seq 0 (Z.to_nat (b - a + 1))).

(** isValidBoundingBox, geospatial.go:357-362. *)
Definition valid_box (b : bbox) : bool :=
  fle (SFopp f90) (bb_min_lat b) && fle (bb_max_lat b) f90 && fle (SFopp f180) (bb_min_lng b) && fle (bb_max_lng b) f180 &&
  fle (bb_min_lat b) (bb_max_lat b) && fle (bb_min_lng b) (bb_max_lng b).
Definition in_box (b : bbox) (c : coord) : bool :=
  fle (bb_min_lat b) (c_lat c) && fle (c_lat c) (bb_max_lat b) && fle (bb_min_lng b) (c_lng c) && fle (c_lng c) (bb_max_lng b).
(** SearchBoundingBox, geospatial.go:206-240. *)
Definition search_box (g : geo) (b : bbox) : outcome (list gpoint) :=
  if negb (valid_box b) then Err EOther
  else Ok (flat_map (fun x => flat_map (fun y => filter (fun p => in_box b (gp_at p)) (cells (geo_grid g) (grid_key x y)))
                                       (zrange (cell (bb_min_lat b)) (cell (bb_max_lat b))))
                    (zrange (cell (bb_min_lng b)) (cell (bb_max_lng b)))).

Section Distance.
(** haversineDistance in kilometres. *)
Variable dist : coord -> coord -> float.
Record geo_hit := { gh_point : gpoint; gh_dist : float }.
Definition nearer_hit (a b : geo_hit) : bool := flt (gh_dist a) (gh_dist b).
Variable srt : list geo_hit -> list geo_hit.

Inductive unit_ := Km | Miles | Meters.
(** The literal 1.60934. *)
Definition km_per_mile : float := f64_div (f64_of_Z 160934) (f64_of_Z 100000).
(** convertToKM and convertFromKM, geospatial.go:365-386. *)
Definition to_km (d : float) (u : unit_) : float :=
  match u with Miles => f64_mul d km_per_mile | Meters => f64_div d (f64_of_Z 1000) | Km => d end.
Definition from_km (d : float) (u : unit_) : float :=
  match u with Miles => f64_div d km_per_mile | Meters => f64_mul d (f64_of_Z 1000) | Km => d end.
(** math.Ceil followed by int64(·). *)
Definition ceil64 (f : float) : Z :=
  match f with
  | S754_finite false m e => let c := if Z.leb 0 e then Z.pos m * 2 ^ e else (Z.pos m + 2 ^ (- e) - 1) / 2 ^ (- e) in
                             if Z.leb c int64_max then c else wild f
  | _ => int64_of f
  end%Z.
(** cellsRadius, geospatial.go:311-312. *)
Definition cells_radius (r : float) : Z := ceil64 (f64_div (f64_div r (f64_of_Z 111)) grid_size).
(** getCandidateCells, geospatial.go:308-329. *)
Definition candidates (g : geo) (c : coord) (r : float) : list gpoint :=
  let n := cells_radius r in
  flat_map (fun dx => flat_map (fun dy => cells (geo_grid g) (grid_key (cell (c_lng c) + dx) (cell (c_lat c) + dy))) (zrange (- n) n)) (zrange (- n) n).
(** SearchRadius, geospatial.go:128-168. *)
Definition search_radius (g : geo) (c : coord) (radius : float) (u : unit_) : outcome (list geo_hit) :=
  if negb (valid_coord c) then Err EOther
  else if fle radius f_zero then Err EOther
  else let r := to_km radius u in
       Ok (srt (map (fun p => {| gh_point := p; gh_dist := from_km (dist c (gp_at p)) u |})
                    (filter (fun p => fle (dist c (gp_at p)) r) (candidates g c r)))).
(** SearchKNN, geospatial.go:171-203; [ord] is the iteration order of the map. *)
Definition search_knn (ord : list gpoint -> list gpoint) (g : geo) (c : coord) (k : Z) : outcome (list geo_hit) :=
  if negb (valid_coord c) then Err EOther
  else if Z.leb k 0 then Err EOther
  else let r := srt (map (fun p => {| gh_point := p; gh_dist := dist c (gp_at p) |}) (ord (geo_points g))) in
       Ok (if Z.ltb (Z.of_nat (length r)) k then r else firstn (Z.to_nat k) r).
End Distance.

(** math.Min and math.Max. *)
Definition math_min (x y : float) : float :=
  match x, y with
  | S754_infinity true, _ | _, S754_infinity true => S754_infinity true
  | S754_nan, _ | _, S754_nan => S754_nan
  | S754_zero sx, S754_zero _ => if sx then x else y
  | _, _ => if flt x y then x else y
  end.
Definition math_max (x y : float) : float :=
  match x, y with
  | S754_infinity false, _ | _, S754_infinity false => S754_infinity false
  | S754_nan, _ | _, S754_nan => S754_nan
  | S754_zero sx, S754_zero _ => if sx then y else x
  | _, _ => if flt y x then x else y
  end.
(** One edge of the polygon, geospatial.go:425-436: true when the flag is flipped. *)
Definition crosses (p p1 p2 : coord) : bool :=
  flt (math_min (c_lng p1) (c_lng p2)) (c_lng p) && fle (c_lng p) (math_max (c_lng p1) (c_lng p2)) &&
  fle (c_lat p) (math_max (c_lat p1) (c_lat p2)) && negb (feq (c_lng p1) (c_lng p2)) &&
  (feq (c_lat p1) (c_lat p2) ||
   fle (c_lat p) (f64_add (f64_div (f64_mul (f64_sub (c_lng p) (c_lng p1)) (f64_sub (c_lat p2) (c_lat p1))) (f64_sub (c_lng p2) (c_lng p1))) (c_lat p1))).
(** pointInPolygon, geospatial.go:418-443: [p1] is the previous corner, [first] = polygon[0]. *)
Fixpoint in_polygon_loop (p p1 first : coord) (inside : bool) (rest : list coord) : bool :=
  match rest with
  | [] => xorb inside (crosses p p1 first)
  | p2 :: r => in_polygon_loop p p2 first (xorb inside (crosses p p1 p2)) r
  end.
Definition in_polygon (p : coord) (poly : list coord) : bool :=
  match poly with [] => false | p1 :: r => in_polygon_loop p p1 p1 false r end.
(** getBoundingBoxFromPolygon, geospatial.go:389-415. *)
Definition widen (b : bbox) (c : coord) : bbox :=
  {| bb_min_lat := if flt (c_lat c) (bb_min_lat b) then c_lat c else bb_min_lat b;
     bb_max_lat := if flt (bb_max_lat b) (c_lat c) then c_lat c else bb_max_lat b;
     bb_min_lng := if flt (c_lng c) (bb_min_lng b) then c_lng c else bb_min_lng b;
     bb_max_lng := if flt (bb_max_lng b) (c_lng c) then c_lng c else bb_max_lng b |}.
Definition polygon_box (poly : list coord) : bbox :=
  match poly with
  | [] => {| bb_min_lat := f_zero; bb_max_lat := f_zero; bb_min_lng := f_zero; bb_max_lng := f_zero |}
  | p :: r => fold_left widen r {| bb_min_lat := c_lat p; bb_max_lat := c_lat p; bb_min_lng := c_lng p; bb_max_lng := c_lng p |}
  end.
(** SearchPolygon, geospatial.go:243-273; [ord] is the iteration order of the map. *)
Definition outside_box (b : bbox) (c : coord) : bool :=
  flt (c_lat c) (bb_min_lat b) || flt (bb_max_lat b) (c_lat c) || flt (c_lng c) (bb_min_lng b) || flt (bb_max_lng b) (c_lng c).
Definition search_polygon (ord : list gpoint -> list gpoint) (g : geo) (poly : list coord) : outcome (list gpoint) :=
  if Nat.ltb (length poly) 3 then Err EOther
  else Ok (filter (fun p => negb (outside_box (polygon_box poly) (gp_at p)) && in_polygon (gp_at p) poly) (ord (geo_points g))).
End Geo.
