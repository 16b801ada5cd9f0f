(** C42 for the flat index. *)
From Coq Require Import String List NArith ZArith Bool Lia Permutation Sorted.
From Coq Require Import Floats.SpecFloat.
From Verif Require Import Base Floats64 TopK IndexDistModel FlatModel FlatSpec FlatProofs.
Import ListNotations.
Local Open Scope string_scope.

(** C42. Search returns the k nearest stored vectors with their distances, nearest first. *)
Theorem flat_search_exact_partial dist order dim norm ops q k :
  visits_all order -> length q = dim -> (1 <= k)%Z ->
  (forall id v, holds dim norm ops id = Some v -> not_nan (dist (prepare norm q) v)) ->
  exists all out, flat_search dist order (frun (new_flat dim norm) ops) q k = Ok out /\
    lists_distances dist (prepare norm q) (holds dim norm ops) all /\ is_topk nearer (Z.to_nat k) all out.
Proof. intros Ho Lq Hk Nn. apply flat_search_lemma with (dim := dim); auto. apply keeps_new. Qed.

(** C42. RangeSearch returns exactly the vectors within the radius, once each, nearest first;
    no condition on the distances. *)
Theorem flat_range_exact dist order dim norm ops q r :
  visits_all order -> length q = dim ->
  let out := flat_range dist order (frun (new_flat dim norm) ops) q r in
  NoDup (map snd out) /\
  (forall d id, In (d, id) out <-> exists v, holds dim norm ops id = Some v /\ d = dist (prepare norm q) v /\ fle d r = true) /\
  StronglySorted (fun a b => nearer b a = false) out.
Proof. intros Ho Lq. apply flat_range_lemma with (dim := dim); auto. apply keeps_new. Qed.

(** C42. What GetVector and Delete report agrees with what the history stored, a failed batch
    being one that had a vector of the wrong dimension or lists of different lengths. *)
Theorem flat_reports dim norm ops id ids vs :
  flat_get (frun (new_flat dim norm) ops) id = holds dim norm ops id /\
  (snd (flat_delete (frun (new_flat dim norm) ops) id) = true <-> holds dim norm ops id <> None) /\
  (snd (flat_batch (frun (new_flat dim norm) ops) ids vs) = true <->
     length ids = length vs /\ forall p, In p (combine ids vs) -> length (snd p) = dim) /\
  flat_size (frun (new_flat dim norm) ops) = length (nodup string_dec (map fst (fl_vecs (frun (new_flat dim norm) ops)))).
Proof.
  pose proof (keeps_new dim norm ops) as K. split; [apply (kp_get _ _ _ _ K)|]. split; [|split].
  - unfold flat_delete. rewrite (kp_get _ _ _ _ K). destruct (holds dim norm ops id); cbn; split; intros; congruence.
  - unfold flat_batch. destruct (Nat.eqb_spec (length ids) (length vs)); cbn [negb snd]; [|split; [discriminate|tauto]].
    destruct (keeps_batch dim norm (combine ids vs) _ _ K) as [_ B]. rewrite B. tauto.
  - unfold flat_size. rewrite nodup_fixed_point by apply (kp_uniq _ _ _ _ K). rewrite map_length. auto.
Qed.

Definition fops : list fop := [FInsert "a" [1065353216%N; 0%N]; FBatch ["b"; "c"] [[0%N; 1065353216%N]; [1073741824%N; 0%N]]; FInsert "b" [0%N; 1073741824%N]; FDelete "c"; FInsert "d" [0%N]].
Definition same (l : list (string * list N)) := l.
Example flat_history_ok :
  visits_all same /\ holds 2 false fops "b" = Some [0%N; 1073741824%N] /\ holds 2 false fops "c" = None /\ holds 2 false fops "d" = None /\
  (forall id v, holds 2 false fops id = Some v -> not_nan (euclidean_distance [0%N; 0%N] v)) /\
  (match flat_search euclidean_distance same (frun (new_flat 2 false) fops) [0%N; 0%N] 5 with Ok l => map snd l | _ => [] end) = ["a"; "b"] /\
  map snd (flat_range euclidean_distance (@rev _) (frun (new_flat 2 false) fops) [0%N; 0%N] (f32_of_Z 1)) = ["a"].
Proof.
  split; [intros l; apply Permutation_refl|]. split; [reflexivity|]. split; [reflexivity|]. split; [reflexivity|]. split; [|split; vm_compute; reflexivity].
  intros id v H. pose proof (keeps_new 2 false fops) as K. rewrite <- (kp_get _ _ _ _ K) in H. apply get_in in H; [|apply (kp_uniq _ _ _ _ K)].
  assert (L : fl_vecs (frun (new_flat 2 false) fops) = [("b", [0%N; 1073741824%N]); ("a", [1065353216%N; 0%N])]) by (vm_compute; reflexivity).
  rewrite L in H. destruct H as [[= <- <-]|[[= <- <-]|[]]]; vm_compute; discriminate.
Qed.
(** Finding: with stored vectors, asking for no results panics. *)
Theorem flat_zero_k_refuted dist order dim norm ops q k :
  visits_all order -> length q = dim -> (k <= 0)%Z -> (exists id, holds dim norm ops id <> None) ->
  flat_search dist order (frun (new_flat dim norm) ops) q k = Panic.
Proof.
  intros Ho Lq Hk (id & H). pose proof (keeps_new dim norm ops) as K. unfold flat_search. rewrite (kp_dim _ _ _ _ K), Lq, Nat.eqb_refl. cbn [negb].
  rewrite <- (kp_get _ _ _ _ K) in H. destruct (fl_vecs _) as [|p l] eqn:E; [contradiction|]. replace (Z.to_nat k) with 0 by lia.
  destruct (order (p :: l)) as [|p' l'] eqn:Eo; [|reflexivity]. specialize (Ho (p :: l)). rewrite Eo in Ho. apply Permutation_sym, Permutation_nil in Ho. discriminate.
Qed.
Example flat_zero_k_ok : exists id, holds 2 false fops id <> None.
Proof. exists "a". discriminate. Qed.

Print Assumptions flat_search_exact_partial.
Print Assumptions flat_range_exact.
Print Assumptions flat_reports.
Print Assumptions flat_zero_k_refuted.
