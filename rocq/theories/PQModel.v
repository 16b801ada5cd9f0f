(** Model of /repo/pkg/quantization/product_quantization.go.  Vector components
    are float32 bit patterns ([N]); the distance is a parameter where only its
    comparisons matter, instantiated by [euclid] (lines 371-378). *)
From Coq Require Import List NArith ZArith Bool.
From Coq Require Import Init.Byte Strings.Byte.
From Coq Require Import Floats.SpecFloat.
From Verif Require Import Base Floats64 TopK EncodingModel.
Import ListNotations.

(** euclideanDistance, product_quantization.go:371-378, on equal lengths. *)
Definition euclid (a b : list N) : float :=
  f32_of_f64 (f64_sqrt (f64_of_f32
    (fold_left (fun acc '(x, y) => let d := f32_sub (f32_of_bits x) (f32_of_bits y) in
                                   f32_add acc (f32_mul d d))
               (combine a b) f_zero))).

(** ProductQuantizer, product_quantization.go:14-22 (TrainSize is informational
    and omitted). M, K, D, SubDim are non-negative. *)
Record pquant := { pq_m : nat; pq_k : nat; pq_d : nat; pq_sub : nat;
                   pq_books : list (list (list N)); pq_trained : bool }.

(** NewProductQuantizer, product_quantization.go:25-41; numSubspaces 0 is an
    integer division by zero. *)
Definition pq_new (dim m k : nat) : outcome pquant :=
  if Nat.eqb m 0 then Panic
  else if negb (Nat.eqb (Nat.modulo dim m) 0) then Err EOther
  else if Nat.ltb 256 k then Err EOther
  else Ok {| pq_m := m; pq_k := k; pq_d := dim; pq_sub := Nat.div dim m;
             pq_books := []; pq_trained := false |}.

(** vec[start:end] with start = m*SubDim: panics beyond the length. *)
Definition subvec (v : list N) (m sub : nat) : outcome (list N) :=
  if Nat.ltb (length v) (m * sub + sub) then Panic
  else Ok (firstn sub (skipn (m * sub) v)).

Section Dist.
Variable dist : list N -> list N -> float.

(** Inner loop of Encode, product_quantization.go:92-102, over the first K
    centroids of the codebook; missing centroids panic. *)
Definition nearest (sv : list N) (book : list (list N)) (k : nat) : outcome nat :=
  if Nat.ltb (length book) k then Panic
  else Ok (snd (argmin_loop (map (dist sv) (firstn k book)) 0 max_float32 0)).

(** byte(minIdx): truncation modulo 256. *)
Definition code_byte (i : nat) : N := N.modulo (N.of_nat i) 256.

Fixpoint encode_loop (v : list N) (sub k : nat) (books : list (list (list N))) (m : nat) (todo : nat)
  : outcome (list N) :=
  match todo with
  | O => Ok []
  | S todo' =>
      bind (subvec v m sub) (fun sv =>
      match nth_error books m with
      | None => Panic
      | Some book =>
          bind (nearest sv book k) (fun i =>
          bind (encode_loop v sub k books (S m) todo') (fun cs => Ok (code_byte i :: cs)))
      end)
  end.

(** Encode, product_quantization.go:75-108. *)
Definition pq_encode (p : pquant) (v : list N) : outcome (list N) :=
  if negb (pq_trained p) then Err EOther
  else if negb (Nat.eqb (length v) (pq_d p)) then Err EOther
  else encode_loop v (pq_sub p) (pq_k p) (pq_books p) 0 (pq_m p).

(** Loop of Decode, product_quantization.go:123-135. *)
Fixpoint decode_loop (codes : list N) (sub k : nat) (books : list (list (list N))) (m : nat)
  : outcome (list N) :=
  match codes with
  | [] => Ok []
  | c :: cs =>
      if Nat.leb k (N.to_nat c) then Err EOther
      else match nth_error books m with
           | None => Panic
           | Some book =>
               match nth_error book (N.to_nat c) with
               | None => Panic
               | Some cen => if Nat.ltb (length cen) sub then Panic
                             else bind (decode_loop cs sub k books (S m)) (fun r => Ok (firstn sub cen ++ r))
               end
           end
  end.

(** Decode, product_quantization.go:111-138.  The result has D components; when
    M*SubDim exceeds D the write vector[start+i] is out of range; components past
    M*SubDim stay 0. *)
Definition pq_decode (p : pquant) (codes : list N) : outcome (list N) :=
  if negb (pq_trained p) then Err EOther
  else if negb (Nat.eqb (length codes) (pq_m p)) then Err EOther
  else bind (decode_loop codes (pq_sub p) (pq_k p) (pq_books p) 0) (fun w =>
         if Nat.ltb (pq_d p) (length w) then Panic
         else Ok (w ++ repeat 0%N (pq_d p - length w))).

(** computeDistanceTable and the per-code sum, product_quantization.go:147-153,
    159-174, 193-196: sum over subspaces of the distance between the query's
    subvector and the coded centroid. [None] = panic (bad shape or code). *)
Fixpoint code_distance (query : list N) (sub : nat) (books : list (list (list N))) (m : nat)
         (codes : list N) (acc : float) : outcome float :=
  match codes with
  | [] => Ok acc
  | c :: cs =>
      bind (subvec query m sub) (fun sq =>
      match nth_error books m with
      | None => Panic
      | Some book => match nth_error book (N.to_nat c) with
                     | None => Panic
                     | Some cen => code_distance query sub books (S m) cs (f32_add acc (dist sq cen))
                     end
      end)
  end.

(** ComputeDistance, product_quantization.go:141-156 (codes of length >= M; the
    first M are used). *)
Definition compute_distance (p : pquant) (codes query : list N) : outcome float :=
  if negb (pq_trained p) then Err EOther
  else if Nat.ltb (length codes) (pq_m p) then Panic
  else code_distance query (pq_sub p) (pq_books p) 0 (firstn (pq_m p) codes) f_zero.

Fixpoint all_distances (p : pquant) (query : list N) (i : nat) (db : list (list N))
  : outcome (list (nat * float)) :=
  match db with
  | [] => Ok []
  | c :: db' => bind (compute_distance p c query) (fun d =>
                bind (all_distances p query (S i) db') (fun r => Ok ((i, d) :: r)))
  end.

(** SearchPQ, product_quantization.go:177-219; [srt] is sort.Slice by distance. *)
Definition by_dist (a b : nat * float) : bool := flt (snd a) (snd b).
Definition search_pq (srt : list (nat * float) -> list (nat * float)) (p : pquant)
           (query : list N) (db : list (list N)) (topk : Z) : outcome (list (nat * float)) :=
  if negb (pq_trained p) || Nat.eqb (length db) 0 then Ok []
  else bind (all_distances p query 0 db) (fun rs =>
    let sorted := srt rs in
    let k := if (Z.of_nat (length sorted) <? topk)%Z then Z.of_nat (length sorted) else topk in
    if (k <? 0)%Z then Panic else Ok (firstn (Z.to_nat k) sorted)).

(** kMeans, product_quantization.go:302-368.  [perm] is rand.Perm; [mean] sums and
    divides the members of a cluster (lines 344-364; an empty cluster gives the
    zero vector), kept abstract as [centroid_of] producing a vector of [dim]
    components from the members. *)
Definition assign (cs : list (list N)) (v : list N) : nat :=
  snd (argmin_loop (map (dist v) cs) 0 max_float32 0).

Variable centroid_of : nat -> list (list N) -> list N.

Definition update_centroids (dim k : nat) (vs : list (list N)) (asg : list nat) : list (list N) :=
  map (fun j => centroid_of dim (map snd (filter (fun '(a, _) => Nat.eqb a j) (combine asg vs)))) (seq 0 k).

Fixpoint kmeans_iter (fuel dim k : nat) (vs : list (list N)) (asg : list nat) (cs : list (list N)) : list (list N) :=
  match fuel with
  | O => cs
  | S f => let asg' := map (assign cs) vs in
           if list_eq_dec Nat.eq_dec asg asg' then cs
           else kmeans_iter f dim k vs asg' (update_centroids dim k vs asg')
  end.

Definition kmeans (perm : list nat) (vs : list (list N)) (k iters : nat) : outcome (list (list N)) :=
  if Nat.ltb (length vs) k then Err EOther
  else match vs with
       | [] => Panic  (* vectors[0] *)
       | v0 :: _ =>
           let dim := length v0 in
           let init := map (fun i => match nth_error vs i with
                                     | Some v => firstn dim v ++ repeat 0%N (dim - length v)
                                     | None => [] end) (firstn k perm) in
           Ok (kmeans_iter iters dim k vs (repeat 0 (length vs)) init)
       end.

Fixpoint subvecs (vs : list (list N)) (m sub : nat) : outcome (list (list N)) :=
  match vs with
  | [] => Ok []
  | v :: vs' => bind (subvec v m sub) (fun sv => bind (subvecs vs' m sub) (fun r => Ok (sv :: r)))
  end.

Fixpoint train_books (perm : nat -> list nat) (vs : list (list N)) (sub k m todo : nat)
  : outcome (list (list (list N))) :=
  match todo with
  | O => Ok []
  | S t => bind (subvecs vs m sub) (fun svs =>
           bind (kmeans (perm m) svs k 20) (fun cs =>
           bind (train_books perm vs sub k (S m) t) (fun r => Ok (cs :: r))))
  end.

(** Train, product_quantization.go:44-72. *)
Definition pq_train (perm : nat -> list nat) (p : pquant) (vs : list (list N)) : outcome pquant :=
  if Nat.ltb (length vs) (pq_k p * pq_m p) then Err EOther
  else bind (train_books perm vs (pq_sub p) (pq_k p) 0 (pq_m p)) (fun books =>
         Ok {| pq_m := pq_m p; pq_k := pq_k p; pq_d := pq_d p; pq_sub := pq_sub p;
               pq_books := books; pq_trained := true |}).
End Dist.

(** SerializeCodebooks, product_quantization.go:229-262; [None] is nil.  Shape
    mismatches (panic in Go) are excluded by the theorem's hypothesis. *)
Definition pq_serialize (p : pquant) : option (list byte) :=
  if negb (pq_trained p) then None
  else Some (le32 (N.of_nat (pq_m p)) ++ le32 (N.of_nat (pq_k p)) ++ le32 (N.of_nat (pq_d p)) ++
             le32 (N.of_nat (pq_sub p)) ++
             flat_map (fun book => flat_map (fun cen => flat_map le32 cen) book) (pq_books p)).

(** Reading loops of DeserializeCodebooks, product_quantization.go:286-295:
    reading past the data panics. *)
Fixpoint rd_floats (n : nat) (bs : list byte) : outcome (list N * list byte) :=
  match n with
  | O => Ok ([], bs)
  | S n' => match rd32 bs with
            | None => Panic
            | Some (x, r) => bind (rd_floats n' r) (fun '(xs, r') => Ok (x :: xs, r'))
            end
  end.
Fixpoint rd_book (k sub : nat) (bs : list byte) : outcome (list (list N) * list byte) :=
  match k with
  | O => Ok ([], bs)
  | S k' => bind (rd_floats sub bs) (fun '(c, r) => bind (rd_book k' sub r) (fun '(cs, r') => Ok (c :: cs, r')))
  end.
Fixpoint rd_books (m k sub : nat) (bs : list byte) : outcome (list (list (list N)) * list byte) :=
  match m with
  | O => Ok ([], bs)
  | S m' => bind (rd_book k sub bs) (fun '(b, r) => bind (rd_books m' k sub r) (fun '(bs', r') => Ok (b :: bs', r')))
  end.

(** DeserializeCodebooks, product_quantization.go:265-299. *)
Definition pq_deserialize (data : list byte) : outcome pquant :=
  if Nat.ltb (length data) 16 then Err EOther
  else match rd32 data with
  | None => Panic
  | Some (m, r1) => match rd32 r1 with
    | None => Panic
    | Some (k, r2) => match rd32 r2 with
      | None => Panic
      | Some (d, r3) => match rd32 r3 with
        | None => Panic
        | Some (s, r4) =>
            bind (rd_books (N.to_nat m) (N.to_nat k) (N.to_nat s) r4) (fun '(books, _) =>
              Ok {| pq_m := N.to_nat m; pq_k := N.to_nat k; pq_d := N.to_nat d; pq_sub := N.to_nat s;
                    pq_books := books; pq_trained := true |})
        end end end end.
