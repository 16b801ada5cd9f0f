(** C30, C77, C78: collecting the best of a stream, streaming search, merged streams; for
    every stream, reachable store, schedule, cancellation and timeout. *)
From Coq Require Import String List NArith ZArith Bool Arith Lia Permutation Sorted.
From Coq Require Import Floats.SpecFloat.
From Verif Require Import Base Floats64 TopK EncodingModel DimensionModel SimilarityModel StoreModel StoreSpec StoreProofs StoreInv StoreProofs2 StoreProofs3 StoreProps
  SearchModel SearchSpec SearchProofs SearchProps DiversityModel DiversitySpec DiversityProofs DiversityProps RerankProps StreamModel StreamSpec StreamProofs.
Import ListNotations.
Open Scope string_scope.
Open Scope list_scope.

(** ** C30 *)
(** For positive k the collector returns the k best, best first, of the different
    results it has read. It has read the whole stream, or everything up to the
    cancellation, which it reports, or it holds k results that all score above 0.9. *)
Theorem collect_topk_exact_partial :
  forall srt k stream, sort_ok by_score srt -> (0 < k)%Z -> (forall r, In (Some r) stream -> not_nan (snd r)) ->
  exists out cancelled read rest, collect_topk srt k stream = Ok (out, cancelled) /\ stream = map Some read ++ rest /\
    is_topk by_score (Z.to_nat k) (firsts read) out /\
    ((cancelled = false /\ rest = []) \/ (cancelled = true /\ exists rest', rest = None :: rest') \/
     (cancelled = false /\ length out = Z.to_nat k /\ forall x, In x out -> fgt (snd x) f_09 = true)).
Proof.
  intros srt k stream Hs Hk Hn. unfold collect_topk. replace (k <? 0)%Z with false by lia.
  destruct (collect_loop_ok srt Hs k Hk stream [] [] ltac:(cbn; lia)) as (out & b & E).
  destruct (collect_loop_spec srt Hs k Hk stream [] [] [] out b) as (mid & post & A & B & C); auto.
  - exists []. split; [constructor|]. split; [cbn; lia|]. split; [constructor|]. intros x y [].
  - intros id. cbn. tauto.
  - intros r [].
  - exists out, b, mid, post. auto.
Qed.
Definition stream3 : list (option scored) := [Some (hit "a" "" v10 1); Some (hit "b" "" v11 3); Some (hit "a" "" v10 5); Some (hit "c" "" v01 2)].
Example collect_topk_exact_partial_ex :
  (forall r, In (Some r) stream3 -> not_nan (snd r)) /\
  (exists out, collect_topk isorted 2 (map (option_map (fun r : scored => (fst r, f64_div (snd r) (f64_of_Z 8)))) stream3) = Ok (out, false) /\ map (fun r => e_id (fst r)) out = ["b"; "c"]) /\
  (exists out, collect_topk isorted 2 [Some (hit "a" "" v10 0); None; Some (hit "b" "" v10 0)] = Ok (out, true) /\ map (fun r => e_id (fst r)) out = ["a"]).
Proof.
  split; [intros r [[= <-]|[[= <-]|[[= <-]|[[= <-]|[]]]]]; vm_compute; discriminate|].
  split; eexists; (split; [vm_compute; reflexivity|]); reflexivity.
Qed.

(** In particular, when no score exceeds 0.9 the k best of the whole stream. *)
Theorem collect_topk_all :
  forall srt k stream, sort_ok by_score srt -> (0 < k)%Z -> (forall r, In r stream -> not_nan (snd r) /\ fgt (snd r) f_09 = false) ->
  exists out, collect_topk srt k (map Some stream) = Ok (out, false) /\ is_topk by_score (Z.to_nat k) (firsts stream) out.
Proof.
  intros srt k stream Hs Hk Hn.
  destruct (collect_topk_exact_partial srt k (map Some stream) Hs Hk) as (out & b & read & rest & E & A & T & C).
  { intros r Hr. apply in_map_iff in Hr as (r' & [= <-] & Hr). apply Hn; auto. }
  exists out.
  assert (Hrest : rest = []  -> stream = read).
  { intros ->. rewrite app_nil_r in A. clear -A. revert read A. induction stream as [|x l IH]; intros [|y r] A; try discriminate; auto. injection A as <- A. f_equal. auto. }
  assert (Hin : forall x, In (Some x) (map Some read ++ rest) -> In x stream).
  { intros x Hx. rewrite <- A in Hx. apply in_map_iff in Hx as (y & [= <-] & Hy). auto. }
  destruct C as [[-> C]|[(-> & rest' & ->)|(-> & L & C)]].
  - split; auto. rewrite (Hrest C). exact T.
  - exfalso. assert (In None (map Some stream)) as H by (rewrite A; apply in_or_app; right; left; auto). apply in_map_iff in H as (y & H & _). discriminate.
  - exfalso. destruct out as [|x out]; [cbn in L; lia|].
    assert (Hx : In x read). { apply firsts_in. eapply is_topk_in; [exact T|left; auto]. }
    destruct (Hn x) as [_ H]; [apply Hin; apply in_or_app; left; apply in_map; auto|]. rewrite (C x (or_introl eq_refl)) in H. discriminate.
Qed.
Example collect_topk_all_ex : (forall r, In r [hit "a" "" v10 0; hit "b" "" v11 (-3)] -> not_nan (snd r) /\ fgt (snd r) f_09 = false).
Proof. intros r [<-|[<-|[]]]; split; vm_compute; try discriminate; reflexivity. Qed.

(** Not true in general: a better result that comes after k results above 0.9 is missed,
    and k = 0 panics on the first result. *)
Theorem collect_early_exit_refuted :
  exists stream k out, (0 < k)%Z /\ collect_topk isorted k (map Some stream) = Ok (out, false) /\
    NoDup (map (fun r : scored => e_id (fst r)) stream) /\ exists x y, In x out /\ In y stream /\ ~ In y out /\ fgt (snd y) (snd x) = true.
Proof.
  exists [hit "a" "" v10 1; hit "b" "" v10 2], 1%Z. eexists. split; [lia|]. split; [vm_compute; reflexivity|].
  split; [repeat constructor; cbn; intuition discriminate|]. exists (hit "a" "" v10 1), (hit "b" "" v10 2).
  split; [left; reflexivity|]. split; [right; left; reflexivity|]. split; [|vm_compute; reflexivity]. intros [H|[]]. discriminate.
Qed.
Theorem collect_zero_refuted :
  forall srt r stream, collect_topk srt 0 (Some r :: stream) = Panic /\ collect_topk srt 0 [] = Ok ([], false).
Proof. intros. split; reflexivity. Qed.

(** ** C77 *)
(** Whatever is cancelled or times out, a stream search delivers stored embeddings that
    match the options, each at most once, with the similarity to the query as score. The
    n-th batch is a part of the n-th group of candidates, best first. *)
Theorem stream_search_sound :
  forall I srt fate quit envs sc s q o out,
  sort_ok by_score srt -> reachable I envs s ->
  stream_search I srt fate quit sc s q o = Ok out ->
  NoDup (map (fun x : scored * nat => e_id (fst (fst x))) out) /\
  (forall e x b, In ((e, x), b) out ->
     (exists e0, get_by_id I s (e_id e) = Ok e0 /\ e = without_acl e0) /\ qualifies (so_opts o) e /\ x = sc_sim sc q (vec_of e)) /\
  StronglySorted le (map snd out) /\
  exists all, lists_stored I s (qualifies (so_opts o)) (fun e => sc_sim sc q (vec_of e)) all /\
    let size := if (0 <? so_batch o)%Z then Z.to_nat (so_batch o) else 100 in
    forall b, exists sorted, Permutation (firstn size (skipn (b * size) all)) sorted /\
      ((forall x, In x sorted -> not_nan (snd x)) -> best_first sorted) /\
      sublist (map fst (filter (fun x : scored * nat => Nat.eqb (snd x) b) out)) sorted.
Proof.
  intros I srt fate quit envs sc s q o out Hs R H. unfold stream_search in H. destruct (st_closed I s) eqn:C; [discriminate|].
  set (cs := fetch_candidates (st_db I s) (so_opts o)) in *.
  pose proof (candidates_listed I s envs (so_opts o) (fun e => sc_sim sc q (vec_of e)) R C) as L. fold cs in L.
  destruct (stream_loop_sub srt Hs fate quit sc q o (length cs) 0 0 0 cs) as (l & P & Sub).
  destruct (stream_loop_batches srt Hs fate quit sc q o (length cs) 0 0 0 cs) as (B1 & _ & B2). 
  assert (E : out = stream_loop srt fate quit sc q o (length cs) 0 0 0 cs) by congruence. rewrite <- E in *. clear E H.
  change (map (fun e => (e, sc_sim sc q (vec_of e))) cs) with (map (scored_by sc q) cs) in L.
  assert (Nd : NoDup (map (fun x : scored => e_id (fst x)) l)). { eapply Permutation_NoDup; [apply Permutation_map; exact P|apply L]. }
  split; [|split; [|split]].
  - rewrite <- (map_map fst (fun x : scored => e_id (fst x))). eapply sublist_NoDup; eauto.
  - intros e x b Hin. apply (in_map fst) in Hin. apply (sublist_in _ _ _ Sub) in Hin. apply (Permutation_in _ (Permutation_sym P)) in Hin.
    apply L in Hin as (e0 & G & -> & Q & ->). eauto.
  - exact B1.
  - exists (map (scored_by sc q) cs). split; [exact L|]. cbv zeta. intros b. destruct (B2 b) as (sorted & P' & F & S').
    exists sorted. split; [|auto]. replace (if (0 <? so_batch o)%Z then Z.to_nat (so_batch o) else 100) with (batch_size o).
    + rewrite skipn_map, firstn_map. exact P'.
    + unfold batch_size. destruct (Z.leb_spec (so_batch o) 0), (Z.ltb_spec 0 (so_batch o)); auto; lia.
Qed.
Definition stream_opts (k batch : Z) (early : bool) (quality : float) : stopts :=
  {| so_opts := opts "" k [] f_zero; so_batch := batch; so_early := early; so_quality := quality |}.
Definition stream_cluster (fate : nat -> send) (quit : nat -> bool) (o : stopts) : list (string * nat) :=
  match stream_search list_index isorted fate quit cosine_scorer cluster v21 o with
  | Ok l => map (fun x => (e_id (fst (fst x)), snd x)) l | _ => [] end.
Example stream_search_sound_ex :
  reachable list_index fk_env cluster /\
  stream_cluster (fun _ => Sent) (fun _ => false) (stream_opts 0 3 false f_zero) = [("c", 0); ("b", 0); ("a", 0); ("d", 1)] /\
  stream_cluster (fun n => if Nat.eqb n 0 then Skipped else Sent) (fun _ => false) (stream_opts 0 2 false f_zero) = [("a", 0); ("c", 1); ("d", 1)] /\
  stream_cluster (fun _ => Sent) (Nat.leb 1) (stream_opts 0 2 false f_zero) = [("b", 0); ("a", 0)].
Proof. split; [apply filled_reachable|]. split; [vm_compute; reflexivity|]. split; vm_compute; reflexivity. Qed.

(** When nothing is cancelled or skipped it delivers all of them, unless early
    termination is on: then it ends with the first result that reaches the quality
    threshold in a batch by which TopK matches have been looked at. *)
Theorem stream_search_complete_partial :
  forall I srt fate quit envs sc s q o out,
  sort_ok by_score srt -> reachable I envs s -> (forall n, fate n = Sent) -> (forall b, quit b = false) ->
  stream_search I srt fate quit sc s q o = Ok out ->
  exists all, lists_stored I s (qualifies (so_opts o)) (fun e => sc_sim sc q (vec_of e)) all /\
    ((Permutation all (map fst out) /\ forall x, In x out -> ~ ends_early o (length all) x) \/
     (exists out' x, out = out' ++ [x] /\ ends_early o (length all) x /\ forall x, In x out' -> ~ ends_early o (length all) x)).
Proof.
  intros I srt fate quit envs sc s q o out Hs R F Q H. unfold stream_search in H. destruct (st_closed I s) eqn:C; [discriminate|].
  set (cs := fetch_candidates (st_db I s) (so_opts o)) in *.
  pose proof (candidates_listed I s envs (so_opts o) (fun e => sc_sim sc q (vec_of e)) R C) as L. fold cs in L.
  exists (map (scored_by sc q) cs). split; [exact L|].
  assert (E : out = stream_loop srt fate quit sc q o (length cs) 0 0 0 cs) by congruence.
  rewrite map_length.
  assert (Neg : forall x, halts o (length cs) x = false -> ~ ends_early o (length cs) x). { intros x Hx Hy. apply halts_iff in Hy. congruence. }
  destruct (stream_loop_all srt Hs fate quit sc q o (length cs) F Q (length cs) 0 0 0 cs (le_n _)) as [[P B]|(o2 & x & E2 & B & D)]; try rewrite <- E in *; auto.
  right. exists o2, x. split; [congruence|]. split; [apply halts_iff; auto|auto].
Qed.
Example stream_search_complete_partial_ex :
  stream_cluster (fun _ => Sent) (fun _ => false) (stream_opts 3 2 true (f64_of_Z 2)) = [("b", 0); ("a", 0); ("c", 1); ("d", 1)] /\
  stream_cluster (fun _ => Sent) (fun _ => false) (stream_opts 3 2 true half) = [("b", 0); ("a", 0); ("c", 1)].
Proof. split; vm_compute; reflexivity. Qed.

(** Findings. A result that waits longer than MaxLatency is dropped, not delayed; and
    early termination stops at the first good result of a batch that is large enough,
    before TopK results have been delivered. *)
Theorem stream_slow_consumer_refuted :
  exists fate out id e, stream_search list_index isorted fate (fun _ => false) cosine_scorer cluster v21 (stream_opts 0 2 false f_zero) = Ok out /\
    fate 1 = Sent /\ get_by_id list_index cluster id = Ok e /\ ~ In id (map (fun x => e_id (fst (fst x))) out).
Proof.
  exists (fun n => if Nat.eqb n 0 then Skipped else Sent). eexists. exists "b". eexists. split; [vm_compute; reflexivity|].
  split; [reflexivity|]. split; [vm_compute; reflexivity|]. cbn. intuition discriminate.
Qed.
Theorem stream_early_termination_refuted :
  exists out, stream_search list_index isorted (fun _ => Sent) (fun _ => false) cosine_scorer cluster v21 (stream_opts 3 0 true half) = Ok out /\
    length out = 1 /\
    3 <= length (filter (fun e => fge (sc_sim cosine_scorer v21 (vec_of e)) half) (fetch_candidates (st_db list_index cluster) (opts "" 3 [] f_zero))).
Proof. eexists. split; [vm_compute; reflexivity|]. split; [reflexivity|]. vm_compute. repeat constructor. Qed.

(** Streaming and collecting gives the exact search result when nothing is lost and no
    score exceeds 0.9. *)
Theorem stream_collect_exact_partial :
  forall I srt fate quit envs sc s q o out k,
  sort_ok by_score srt -> reachable I envs s -> (forall n, fate n = Sent) -> (forall b, quit b = false) -> so_early o = false -> (0 < k)%Z ->
  (forall id e, get_by_id I s id = Ok e -> not_nan (sc_sim sc q (vec_of e)) /\ fgt (sc_sim sc q (vec_of e)) f_09 = false) ->
  stream_search I srt fate quit sc s q o = Ok out ->
  exists all res, lists_stored I s (qualifies (so_opts o)) (fun e => sc_sim sc q (vec_of e)) all /\
    collect_topk srt k (map Some (map fst out)) = Ok (res, false) /\ is_topk by_score (Z.to_nat k) all res.
Proof.
  intros I srt fate quit envs sc s q o out k Hs R F Q He Hk Hn H.
  destruct (stream_search_complete_partial I srt fate quit envs sc s q o out Hs R F Q H) as (all & L & [[P _]|(o2 & x & _ & [A _] & _)]); [|congruence].
  destruct (collect_topk_all srt k (map fst out) Hs Hk) as (res & E & T).
  { intros [e x] Hr. apply (Permutation_in _ (Permutation_sym P)) in Hr. apply L in Hr as (e0 & G & -> & _ & ->). exact (Hn _ _ G). }
  exists all, res. split; [exact L|]. split; [exact E|]. eapply is_topk_perm; [apply Permutation_sym; exact P|].
  replace (map fst out) with (firsts (map fst out)); [exact T|].
  assert (N : NoDup (map (fun x : scored => e_id (fst x)) (map fst out))). { eapply Permutation_NoDup; [apply Permutation_map; exact P|apply L]. }
  revert N. generalize (map fst out). clear. induction l as [|x l IH]; intros N; cbn [firsts]; [reflexivity|]. cbn in N. inversion N as [|? ? Hx N']; subst.
  f_equal. rewrite IH by auto. apply filter_all. intros y Hy. apply negb_true_iff. apply String.eqb_neq. intros E. apply Hx. rewrite <- E. apply (in_map (fun x : scored => e_id (fst x))). exact Hy.
Qed.
Example stream_collect_exact_partial_ex :
  exists out res, stream_search list_index isorted (fun _ => Sent) (fun _ => false)
      {| sc_sim := fun a b => f64_sub (cosine a b) f_one; sc_text := None; sc_enabled := false; sc_default := f_zero |} cluster v21 (stream_opts 0 3 false f_zero) = Ok out /\
    collect_topk isorted 2 (map Some (map fst out)) = Ok (res, false) /\ map (fun x => e_id (fst x)) res = ["c"; "b"].
Proof. do 2 eexists. split; [vm_compute; reflexivity|]. split; [vm_compute; reflexivity|]. reflexivity. Qed.

(** ** C78 *)
(** Merging loses, duplicates and reorders nothing within a channel, under every
    schedule: what has come out of a channel, what its goroutine holds and what is still
    in it are the channel's results in order. When the merged channel is closed
    everything has come out. *)
Theorem merge_streams_exact :
  forall channels schedule,
  let st := merge_streams channels schedule in
  (forall i c, nth_error channels i = Some c -> exists rest, c = from_channel i (snd st) ++ rest) /\
  (merge_closed st = true -> forall i c, nth_error channels i = Some c -> from_channel i (snd st) = c) /\
  (forall p, In p (snd st) -> exists c, nth_error channels (fst p) = Some c /\ In (snd p) c).
Proof.
  intros channels schedule. cbv zeta. destruct (merge_inv_run channels schedule) as (A & B & L). split; [|split].
  - intros i c Hc. destruct (A i c Hc) as (rest & h & _ & E). rewrite E. eauto.
  - intros Hcl i c Hc. destruct (A i c Hc) as (rest & h & Ef & E). unfold merge_closed in Hcl. rewrite forallb_forall in Hcl.
    specialize (Hcl _ (nth_error_In _ _ Ef)). destruct rest; [|discriminate]. destruct h; [discriminate|]. rewrite E. cbn. rewrite app_nil_r. reflexivity.
  - intros [i r] Hp. pose proof (B _ Hp) as Hi. cbn in Hi |- *. destruct (nth_error channels i) as [c|] eqn:Ec; [|apply nth_error_None in Ec; lia].
    exists c. split; auto. destruct (A i c Ec) as (rest & h & _ & E). rewrite E. apply in_or_app. left. unfold from_channel.
    apply in_map_iff. exists (i, r). split; auto. apply filter_In. split; auto. cbn. apply Nat.eqb_refl.
Qed.
Example merge_streams_exact_ex :
  let st := merge_streams [[hit "a" "" v10 1; hit "b" "" v10 2]; [hit "c" "" v10 3]] [1; 0; 0; 1; 0; 0; 1] in
  merge_closed st = true /\ map (fun p => e_id (fst (snd p))) (snd st) = ["a"; "c"; "b"].
Proof. split; reflexivity. Qed.

Print Assumptions collect_topk_exact_partial.
Print Assumptions collect_topk_all.
Print Assumptions collect_early_exit_refuted.
Print Assumptions collect_zero_refuted.
Print Assumptions stream_search_sound.
Print Assumptions stream_search_complete_partial.
Print Assumptions stream_slow_consumer_refuted.
Print Assumptions stream_early_termination_refuted.
Print Assumptions stream_collect_exact_partial.
Print Assumptions merge_streams_exact.
