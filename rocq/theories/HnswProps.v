(** C37, C38, C39, C68: the HNSW index. [dist] is the configured distance and [keep]
    what the index keeps of a vector; both are arbitrary. *)
From Coq Require Import String List Arith ZArith Bool Lia Permutation Sorted.
From Coq Require Import Floats.SpecFloat.
From Verif Require Import Base Floats64 TopK HeapModel HnswModel HnswSpec HnswSearchProofs HnswProofs HnswProofs2.
Import ListNotations.
Local Open Scope string_scope.

(** *** A concrete index: points on a line. *)
Definition line (a b : Z) : float := f64_of_Z (Z.abs (a - b)).
Definition same (a : Z) : Z := a.
Definition pt (s : string) (z : Z) : string * Z * nat := (s, z, 0).
Definition five : list (hop Z) :=
  [HInsert "a" 0%Z 1; HInsert "b" 10%Z 0; HBatch [pt "c" 20%Z; pt "a" 99%Z]; HInsert "d" 30%Z 2; HInsert "e" 40%Z 0; HDelete "c" 0].
Definition run_line M ops := hrun line same (new_hnsw M 8) ops.
Definition answer M ops q k ef : outcome (list (float * string)) :=
  match run_line M ops with Ok h => hnsw_search line h q k ef | Err e => Err e | Panic => Panic end.

(** *** C37: Search is sound. *)
(** Every history of inserts, batch inserts and deletes runs without failing the index. *)
Theorem hnsw_history_total : forall (vec : Type) (dist : vec -> vec -> float) (keep : vec -> vec) M efc ops,
  exists h, hrun dist keep (new_hnsw M efc) ops = Ok h.
Proof. intros vec dist keep M efc ops. destruct (run_good dist keep ops _ (new_good M efc)) as (h & E & _). eauto. Qed.
Print Assumptions hnsw_history_total.

(** For every history, level choice and query: Search answers, with at most k distinct
    live ids, each with its own distance, nearest first. *)
Theorem hnsw_search_sound : forall (vec : Type) (dist : vec -> vec -> float) (keep : vec -> vec) M efc ops h q k ef,
  hrun dist keep (new_hnsw M efc) ops = Ok h -> (0 <= k)%Z ->
  exists out, hnsw_search dist h q k ef = Ok out /\
    length out <= Z.to_nat k /\ NoDup (map snd out) /\
    (forall d id, In (d, id) out -> exists v, In (id, v) (live (contents keep ops)) /\ d = dist q v) /\
    (distances_are_numbers dist q (live (contents keep ops)) -> sorted_by nearer out).
Proof.
  intros vec dist keep M efc ops h q k ef E Hk. destruct (run_new dist keep M efc ops h E) as (G & P & _).
  rewrite <- P. apply search_sound_lemma; auto.
Qed.
Example hnsw_search_sound_ex : answer 1 five 12%Z 3 5 = Ok [(f64_of_Z 2, "b"); (f64_of_Z 12, "a"); (f64_of_Z 18, "d")].
Proof. vm_compute. reflexivity. Qed.
Print Assumptions hnsw_search_sound.

(** The answer is the top k of the live members of a visited set that is locally
    optimal: a neighbour of a visited node is visited too, unless ef nodes at least as
    near were found. *)
Theorem hnsw_search_local_optimum : forall (vec : Type) (dist : vec -> vec -> float) (keep : vec -> vec) M efc ops h q k ef,
  hrun dist keep (new_hnsw M efc) ops = Ok h -> (0 <= k)%Z -> h_entry h <> "" ->
  (forall id v b, In (id, (v, b)) (contents keep ops) -> not_nan (dist q v)) ->
  exists visited out, hnsw_search dist h q k ef = Ok out /\ visited <> [] /\ NoDup visited /\
    is_topk nearer (Z.to_nat k)
      (with_distance dist q (filter (fun p => mem (fst p) visited) (live (contents keep ops)))) out /\
    forall x y vy by_, In x visited -> In y (links h x 0) -> In (y, (vy, by_)) (contents keep ops) ->
      In y visited \/
      (ef <= length visited /\ forall z vz bz, In z visited -> In (z, (vz, bz)) (contents keep ops) -> flt (dist q vy) (dist q vz) = false).
Proof. exact @local_optimum_lemma. Qed.
Print Assumptions hnsw_search_local_optimum.

(** While the index holds at most 2M+1 vectors and ef covers them, Search is exact. *)
Theorem hnsw_small_index_exact : forall (vec : Type) (dist : vec -> vec -> float) (keep : vec -> vec) M efc ops h q k ef,
  1 <= M -> sequential ops -> hrun dist keep (new_hnsw M efc) ops = Ok h ->
  length (contents keep ops) <= 2 * M + 1 -> ~ In "" (map fst (contents keep ops)) ->
  (0 <= k)%Z -> length (contents keep ops) <= ef ->
  (forall id v b, In (id, (v, b)) (contents keep ops) -> not_nan (dist q v)) ->
  exists out, hnsw_search dist h q k ef = Ok out /\
    is_topk nearer (Z.to_nat k) (with_distance dist q (live (contents keep ops))) out.
Proof. intros vec dist keep M efc ops h q k ef. apply small_exact_lemma. Qed.
Example hnsw_small_index_exact_ex :
  length (contents same five) = 5 /\ answer 2 five 41%Z 9 5 = Ok [(f64_of_Z 1, "e"); (f64_of_Z 11, "d"); (f64_of_Z 31, "b"); (f64_of_Z 41, "a")].
Proof. vm_compute. auto. Qed.
Print Assumptions hnsw_small_index_exact.

(** A negative k crashes the search of a non-empty index. *)
Theorem hnsw_negative_k_refuted : exists (ops : list (hop Z)) h, run_line 2 ops = Ok h /\ hnsw_search line h 0%Z (-1) 5 = Panic.
Proof. exists five. eexists. split; [vm_compute; reflexivity|]. vm_compute. reflexivity. Qed.
Print Assumptions hnsw_negative_k_refuted.

(** *** C38: the graph is well formed. *)
Theorem hnsw_links_well_formed : forall (vec : Type) (dist : vec -> vec -> float) (keep : vec -> vec) M efc ops h,
  hrun dist keep (new_hnsw M efc) ops = Ok h ->
  (forall id, known h id <-> In id (map fst (contents keep ops))) /\
  (forall x lc y, In y (links h x lc) -> known h y /\ y <> x) /\
  (forall x lc, NoDup (links h x lc)) /\
  (h_entry h <> "" -> known h (h_entry h)).
Proof. exact @links_lemma. Qed.
Print Assumptions hnsw_links_well_formed.

Theorem hnsw_caps_partial : forall (vec : Type) (dist : vec -> vec -> float) (keep : vec -> vec) M efc ops h,
  sequential ops -> hrun dist keep (new_hnsw M efc) ops = Ok h ->
  forall x lc, length (links h x lc) <= (if Nat.eqb lc 0 then 2 * M else M).
Proof. exact @caps_lemma. Qed.
Example hnsw_caps_ex : exists h, run_line 1 five = Ok h /\ links h "b" 0 = ["a"; "c"] /\ links h "a" 1 = ["d"].
Proof. eexists. split; [vm_compute; reflexivity|]. vm_compute. auto. Qed.
Print Assumptions hnsw_caps_partial.

(** Bulk-parallel insertion never prunes, so its lists exceed the caps. *)
Definition crowd : list (string * Z * nat) :=
  [pt "a" 0; pt "b" 1; pt "c" 2; pt "d" 3; pt "e" 4; pt "f" 5; pt "g" 6; pt "h" 7; pt "i" 8; pt "j" 9;
   pt "k" 10; pt "l" 11; pt "m" 12; pt "n" 13; pt "o" 14; pt "p" 15; pt "q" 16; pt "r" 17; pt "s" 18; pt "t" 19]%Z.
Theorem hnsw_caps_refuted : exists (ops : list (hop Z)) h x,
  run_line 1 ops = Ok h /\ 2 * 1 < length (links h x 0).
Proof. exists [HParallel crowd 2]. eexists. exists "b". split; [vm_compute; reflexivity|]. vm_compute. lia. Qed.
Print Assumptions hnsw_caps_refuted.

Theorem hnsw_entry_point_partial : forall (vec : Type) (dist : vec -> vec -> float) (keep : vec -> vec) M efc ops h,
  hrun dist keep (new_hnsw M efc) ops = Ok h ->
  ~ In "" (map fst (contents keep ops)) -> contents keep ops <> [] -> h_entry h <> "" /\ known h (h_entry h).
Proof. exact @entry_lemma. Qed.
Example hnsw_entry_point_ex : exists h, run_line 1 five = Ok h /\ h_entry h = "d".
Proof. eexists. split; [vm_compute; reflexivity|]. vm_compute. reflexivity. Qed.
Print Assumptions hnsw_entry_point_partial.

(** The empty id doubles as "no entry point": with it stored, deleting another vector can
    leave a non-empty index whose searches all come back empty. *)
Theorem hnsw_entry_point_refuted : exists (ops : list (hop Z)) h,
  run_line 1 ops = Ok h /\ In ("b", 10%Z) (live (contents same ops)) /\ h_entry h = "" /\
  forall q k ef, hnsw_search line h q k ef = Ok [].
Proof.
  exists [HInsert "a" 0%Z 0; HInsert "" 5%Z 0; HInsert "b" 10%Z 0; HDelete "a" 0]. eexists. split; [vm_compute; reflexivity|].
  split; [vm_compute; auto|]. split; [reflexivity|]. intros. reflexivity.
Qed.
Print Assumptions hnsw_entry_point_refuted.

(** *** C39: bulk insertion. *)
(** Every vector handed to bulk insertion is stored, whatever the number of workers. *)
Theorem hnsw_bulk_stores_partial : forall (vec : Type) (dist : vec -> vec -> float) (keep : vec -> vec) M efc ops vs w h,
  hrun dist keep (new_hnsw M efc) (ops ++ [HParallel vs w]) = Ok h -> forall id v lvl, In (id, v, lvl) vs -> known h id.
Proof. exact @bulk_stores_lemma. Qed.
Print Assumptions hnsw_bulk_stores_partial.

(** Small bulk loads: every vector is found by a search for it. *)
Theorem hnsw_small_bulk_found_partial : forall (vec : Type) (dist : vec -> vec -> float) (keep : vec -> vec) M efc vs w h q,
  1 <= M -> length vs <= 2 * M + 1 -> w <= 1 -> NoDup (map (fun v => fst (fst v)) vs) -> ~ In "" (map (fun v => fst (fst v)) vs) ->
  (forall x, In x vs -> not_nan (dist q (keep (snd (fst x))))) ->
  hrun dist keep (new_hnsw M efc) [HParallel vs w] = Ok h ->
  exists out, hnsw_search dist h q (Z.of_nat (length vs)) (length vs) = Ok out /\
    forall id v lvl, In (id, v, lvl) vs -> In (dist q (keep v), id) out.
Proof. exact @small_bulk_lemma. Qed.
Example hnsw_small_bulk_found_ex :
  answer 2 [HParallel [pt "a" 0; pt "b" 5; pt "c" 100]%Z 1] 7%Z 3 3 = Ok [(f64_of_Z 2, "b"); (f64_of_Z 7, "a"); (f64_of_Z 93, "c")].
Proof. vm_compute. reflexivity. Qed.
Print Assumptions hnsw_small_bulk_found_partial.

(** Parallel bulk insertion of new distinct ids leaves disconnected pieces: every answer
    comes either from the vectors stored before, or from the part of one worker. *)
Theorem hnsw_parallel_disconnected_refuted : forall (vec : Type) (dist : vec -> vec -> float) (keep : vec -> vec) M efc ops vs w h,
  2 <= w -> 10 <= length vs / w -> NoDup (map (fun v => fst (fst v)) vs) ->
  (forall id, In id (map (fun v => fst (fst v)) vs) -> ~ In id (map fst (contents keep ops))) ->
  hrun dist keep (new_hnsw M efc) (ops ++ [HParallel vs w]) = Ok h ->
  exists reach : string -> Prop,
    ((forall x, reach x <-> In x (map fst (contents keep ops))) \/
     exists part, In part (chunks w (length vs / w) vs) /\ forall x, reach x <-> In x (map (fun v => fst (fst v)) part)) /\
    forall q k ef out, hnsw_search dist h q k ef = Ok out -> forall d x, In (d, x) out -> reach x.
Proof. exact @disconnected_lemma. Qed.
Print Assumptions hnsw_parallel_disconnected_refuted.
(** In particular some inserted vector is returned by no search at all. *)
Theorem hnsw_parallel_unfindable_refuted : forall (vec : Type) (dist : vec -> vec -> float) (keep : vec -> vec) M efc vs w h,
  2 <= w -> 10 <= length vs / w -> NoDup (map (fun v => fst (fst v)) vs) ->
  hrun dist keep (new_hnsw M efc) [HParallel vs w] = Ok h ->
  exists id v lvl, In (id, v, lvl) vs /\ forall q k ef out, hnsw_search dist h q k ef = Ok out -> forall d, ~ In (d, id) out.
Proof. exact @unfindable_lemma. Qed.
Example hnsw_parallel_unfindable_ex :
  10 <= length crowd / 2 /\ NoDup (map (fun v => fst (fst v)) crowd) /\
  answer 16 [HParallel crowd 2] 0%Z 20 100 = answer 16 [HParallel (firstn 10 crowd) 1] 0%Z 20 100.
Proof. split; [vm_compute; lia|]. split; [|vm_compute; reflexivity]. cbn. repeat constructor; cbn; intuition discriminate. Qed.
Print Assumptions hnsw_parallel_unfindable_refuted.

(** Sequential bulk insertion: the links back to an outlier are pruned away, so nothing
    leads to it and no search finds it. *)
Definition outlier : list (string * Z * nat) :=
  [pt "a" 0; pt "b" 1; pt "c" 2; pt "d" 3; pt "e" 4; pt "far" 100]%Z.
Theorem hnsw_outlier_unfindable_refuted : exists (vs : list (string * Z * nat)) h id v,
  run_line 2 [HBatch vs] = Ok h /\ In (id, v) (live (contents same [HBatch vs])) /\
  forall q k ef out, hnsw_search line h q k ef = Ok out -> forall d, ~ In (d, id) out.
Proof.
  destruct (hnsw_history_total Z line same 2 8 [HBatch outlier]) as [h E]. exists outlier, h, "far", 100%Z.
  split; [exact E|]. split; [vm_compute; auto 10|]. intros q k ef out Es d Hd.
  destruct (run_new line same 2 8 _ h E) as (G & _).
  vm_compute in E. injection E as <-.
  revert d Hd. cut (forall d x, In (d, x) out -> In x ["a"; "b"; "c"; "d"; "e"]).
  { intros H d Hd. specialize (H d "far" Hd). cbn in H. intuition discriminate. }
  eapply search_in_closed; [exact G| | |exact Es].
  - intros lc x Hx. cbn in Hx.
    destruct Hx as [<-|[<-|[<-|[<-|[<-|[]]]]]]; (eexists; split; [reflexivity|]; intros l L y Hy; destruct lc as [|[|lc]]; cbn in L; try discriminate;
      injection L as <-; cbn in Hy |- *; intuition).
  - intros _. cbn. auto.
Qed.
Print Assumptions hnsw_outlier_unfindable_refuted.

(** *** C68: when a list of candidate links is too long, the nearest are kept. *)
Theorem hnsw_select_nearest_partial : forall (vec : Type) (dist : vec -> vec -> float) (ns : nodes vec) q cands m r,
  ~ In "query" cands -> (forall x, In x cands -> In x (map fst ns)) -> m < length cands ->
  (forall x n, In x cands -> get ns x = Some n -> not_nan (dist q (n_vec n))) ->
  select_neighbors dist ns q cands m = Ok r ->
  exists all out, map snd all = cands /\ (forall d x, In (d, x) all -> exists n, get ns x = Some n /\ d = dist q (n_vec n)) /\
    is_topk nearer m all out /\ r = map snd out.
Proof.
  intros vec dist ns q cands m r Nq Hin Hm HN E.
  destruct (select_nearest_lemma dist ns q cands m r Nq Hin Hm) as (all & out & A1 & A2 & A3 & A4); auto.
  - intros x d Hx D. unfold Dof in D. destruct (get ns x) as [n|] eqn:G; [|discriminate]. injection D as <-. eauto.
  - exists all, out. split; auto. split; auto. intros d x Hx. specialize (A2 d x Hx). unfold Dof in A2.
    destruct (get ns x) as [n|]; [|discriminate]. injection A2 as <-. eauto.
Qed.
Definition three_nodes (last : string) : nodes Z :=
  [("a", Node 1%Z [[]] false); ("b", Node 2%Z [[]] false); (last, Node 50%Z [[]] false)].
Example hnsw_select_nearest_ex : select_neighbors line (three_nodes "far") 0%Z ["far"; "b"; "a"] 2 = Ok ["a"; "b"].
Proof. vm_compute. reflexivity. Qed.
Print Assumptions hnsw_select_nearest_partial.
(** A vector stored under the id "query" is always taken to be at distance 0. *)
Theorem hnsw_select_nearest_refuted :
  select_neighbors line (three_nodes "query") 0%Z ["query"; "b"; "a"] 2 = Ok ["query"; "a"] /\
  flt (line 0 2) (line 0 50) = true.
Proof. vm_compute. auto. Qed.
Print Assumptions hnsw_select_nearest_refuted.
