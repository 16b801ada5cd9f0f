(** C08: product quantisation. *)
From Coq Require Import List NArith ZArith Bool Permutation.
From Coq Require Import Init.Byte Strings.Byte.
From Coq Require Import Floats.SpecFloat.
From Verif Require Import Base Floats64 TopK EncodingModel PQModel PQSpec PQProofs.
Import ListNotations.

(** Training a fresh quantiser yields M codebooks of K centroids of dim/M
    components each, whatever the random initialisation. *)
Theorem pq_train_well_formed :
  forall dist centroid_of, (forall dim l, length (centroid_of dim l) = dim) ->
  forall perm dim m k p0 vs p, (forall j, Permutation (perm j) (seq 0 (length vs))) ->
  pq_new dim m k = Ok p0 -> pq_train dist centroid_of perm p0 vs = Ok p ->
  wf_pq p /\ pq_d p = dim /\ pq_m p = m /\ pq_k p = k.
Proof. exact pq_train_wf. Qed.

(** Encoding picks, in every subspace, a centroid no other centroid is nearer
    than (as soon as some centroid is at a representable distance). *)
Theorem pq_encode_nearest :
  forall dist p v, wf_pq p -> length v = pq_d p ->
  exists cs, pq_encode dist p v = Ok cs /\ length cs = pq_m p /\
    forall m book, nth_error (pq_books p) m = Some book ->
      (exists c, In c book /\ flt (dist (sub_at v m (pq_sub p)) c) max_float32 = true) ->
      exists i c, nth_error cs m = Some (N.of_nat i) /\ nth_error book i = Some c /\
        forall c', In c' book ->
          flt (dist (sub_at v m (pq_sub p)) c') (dist (sub_at v m (pq_sub p)) c) = false.
Proof. exact pq_encode_spec. Qed.

(** Decoding returns the concatenation of the named centroids, D components. *)
Theorem pq_decode_centroids :
  forall p codes, wf_pq p -> length codes = pq_m p -> Forall (fun c => N.to_nat c < pq_k p) codes ->
  exists cens, length cens = pq_m p /\
    (forall m c, nth_error codes m = Some c -> exists book cen, nth_error (pq_books p) m = Some book /\
        nth_error book (N.to_nat c) = Some cen /\ nth_error cens m = Some cen) /\
    pq_decode p codes = Ok (concat cens) /\ length (concat cens) = pq_d p.
Proof. exact (pq_decode_spec euclid). Qed.

(** Codes of the wrong length or naming no centroid are refused. *)
Theorem pq_decode_refuses :
  forall p codes, wf_pq p ->
  (length codes <> pq_m p \/ ~ Forall (fun c => N.to_nat c < pq_k p) codes) -> pq_decode p codes = Err EOther.
Proof. exact (pq_decode_invalid euclid). Qed.

(** Search over codes returns the k nearest codes by the table distance. *)
Theorem pq_search_topk :
  forall dist srt p query db k rs, sort_ok by_dist srt ->
  pq_trained p = true -> db <> [] -> (0 <= k)%Z ->
  all_distances dist p query 0 db = Ok rs -> (forall j d, In (j, d) rs -> not_nan d) ->
  exists out, search_pq dist srt p query db k = Ok out /\ is_topk by_dist (Z.to_nat k) rs out.
Proof. exact search_pq_spec. Qed.
Theorem pq_search_distances :
  forall dist p q db rs, all_distances dist p q 0 db = Ok rs ->
  map fst rs = seq 0 (length db) /\
  forall j d, In (j, d) rs <-> exists c, nth_error db (j - 0) = Some c /\ 0 <= j /\ compute_distance dist p c q = Ok d.
Proof. intros dist p q db rs. exact (all_distances_spec dist p q db 0 rs). Qed.

(** The distance of a valid code is the sum of its subspace distances. *)
Theorem pq_distance_sum :
  forall dist p codes query, wf_pq p -> length codes = pq_m p -> Forall (fun c => N.to_nat c < pq_k p) codes ->
  length query = pq_d p ->
  compute_distance dist p codes query = Ok (table_distance f32_add f_zero dist p codes query).
Proof. exact compute_distance_spec. Qed.
Print Assumptions pq_distance_sum.

(** Serialised codebooks deserialise to the same quantiser, trailing bytes ignored. *)
Theorem pq_serialize_round_trip :
  forall p tail, wf_pq p -> books_bits p ->
  (N.of_nat (pq_m p) < 2^32)%N -> (N.of_nat (pq_d p) < 2^32)%N -> (N.of_nat (pq_sub p) < 2^32)%N ->
  exists bs, pq_serialize p = Some bs /\ pq_deserialize (bs ++ tail) = Ok p.
Proof. exact serialize_round_trip. Qed.

(** Finding: data shorter than the header is refused, but a codebook truncated
    after its header crashes the reader instead of being reported. *)
Theorem pq_deserialize_header_only_refuses : forall bs, length bs < 16 -> pq_deserialize bs = Err EOther.
Proof. exact deserialize_short. Qed.
Theorem pq_deserialize_truncated_refuted :
  exists p bs n, pq_serialize p = Some bs /\ wf_pq p /\ pq_deserialize (firstn n bs) = Panic.
Proof.
  exists {| pq_m := 1; pq_k := 1; pq_d := 1; pq_sub := 1; pq_books := [[[7%N]]]; pq_trained := true |}.
  eexists. exists 18. split; [reflexivity|]. split.
  - repeat split; cbn; repeat constructor.
  - vm_compute. reflexivity.
Qed.

(** Finding: zero subspaces is a division by zero, not an error. *)
Theorem pq_new_zero_subspaces_refuted : exists dim k, pq_new dim 0 k = Panic.
Proof. exists 4, 4. reflexivity. Qed.

(** A concrete trained quantiser: 2 subspaces of 1 component, 2 centroids. *)
Definition ex_one : N := 1065353216%N. (* 1.0 *)
Definition ex_two : N := 1073741824%N. (* 2.0 *)
Definition ex_pq := {| pq_m := 2; pq_k := 2; pq_d := 2; pq_sub := 1;
  pq_books := [[[0%N]; [ex_two]]; [[ex_one]; [0%N]]]; pq_trained := true |}.
Example ex_pq_wf : wf_pq ex_pq /\ books_bits ex_pq.
Proof. split; [|repeat constructor]. unfold wf_pq. cbn. repeat split; repeat constructor. Qed.
Example ex_pq_encode : pq_encode euclid ex_pq [ex_two; 0%N] = Ok [1%N; 1%N].
Proof. vm_compute. reflexivity. Qed.
Example ex_pq_decode : pq_decode ex_pq [1%N; 0%N] = Ok [ex_two; ex_one].
Proof. vm_compute. reflexivity. Qed.
Example ex_pq_search :
  search_pq euclid (isort by_dist) ex_pq [0%N; 0%N] [[1%N; 0%N]; [0%N; 1%N]] 1 = Ok [(1, f_zero)].
Proof. vm_compute. reflexivity. Qed.
Definition ex_centroid (dim : nat) (l : list (list N)) : list N :=
  match l with c :: _ => firstn dim (c ++ repeat 0%N dim) | [] => repeat 0%N dim end.
Example ex_pq_train :
  exists p0 p, pq_new 2 2 1 = Ok p0 /\ pq_train euclid ex_centroid (fun _ => [1; 0]) p0 [[ex_one; ex_two]; [0%N; ex_one]] = Ok p /\
    pq_books p = [[[0%N]]; [[ex_one]]].
Proof. do 2 eexists. repeat split; vm_compute; reflexivity. Qed.

Print Assumptions pq_train_well_formed.
Print Assumptions pq_encode_nearest.
Print Assumptions pq_decode_centroids.
Print Assumptions pq_decode_refuses.
Print Assumptions pq_search_topk.
Print Assumptions pq_search_distances.
Print Assumptions pq_serialize_round_trip.
Print Assumptions pq_deserialize_truncated_refuted.
