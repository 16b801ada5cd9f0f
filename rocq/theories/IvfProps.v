(** C40 and C41 for the IVF index. *)
From Coq Require Import String List NArith ZArith Bool Lia Permutation Sorted.
From Coq Require Import Floats.SpecFloat.
From Verif Require Import Base Floats64 TopK IndexDistModel IvfModel IvfSpec IvfProofs.
Import ListNotations.
Local Open Scope string_scope.

(** C40. Probing every list gives the true k nearest stored vectors. *)
Theorem ivf_search_exact dist srt dim cents vectors x ops q k :
  sort_ok closer srt -> ivf_train (new_ivf dim (length cents)) vectors cents = Ok x ->
  no_deletions ops -> (Z.of_nat (length cents) <= probes (length cents) ops)%Z ->
  length q = dim -> (0 <= k)%Z -> distances_are_numbers dist q (map snd (stored dim ops)) ->
  exists out, ivf_search dist srt (irun dist x ops) q k = Ok out /\
    is_topk nearer (Z.to_nat k) (with_distance dist q (stored dim ops)) out.
Proof.
  intros Hs T Nd Np Lq Hk Nn. destruct (run_rep dist cents dim vectors x ops T) as [R P]; [apply no_del_last; auto|].
  destruct (search_ok dist cents dim srt _ _ q k Hs R Lq Hk Nn) as (out & E & Top). exists out. split; auto.
  rewrite all_probed in Top; auto; [eapply train_pos; eauto|lia].
Qed.

(** C40. With fewer probes: the k nearest among the probed lists, which are those of the
    nearest centroids; each stored vector is on the list of a centroid nearest to it. *)
Theorem ivf_search_probed dist srt dim cents vectors x ops q k :
  sort_ok closer srt -> ivf_train (new_ivf dim (length cents)) vectors cents = Ok x ->
  no_deletions ops -> (forall p, In p (stored dim ops) -> in_reach dist cents (snd p)) ->
  length q = dim -> (0 <= k)%Z ->
  distances_are_numbers dist q (map snd (stored dim ops)) -> distances_are_numbers dist q cents ->
  exists (list_of : list N -> nat) probed out,
    (forall p, In p (stored dim ops) -> is_nearest dist cents (snd p) (list_of (snd p))) /\
    is_topk closer (Z.to_nat (probes (length cents) ops)) (combine (map (dist q) cents) (seq 0 (length cents))) probed /\
    ivf_search dist srt (irun dist x ops) q k = Ok out /\
    is_topk nearer (Z.to_nat k)
      (with_distance dist q (filter (fun p => existsb (Nat.eqb (list_of (snd p))) (map snd probed)) (stored dim ops))) out.
Proof.
  intros Hs T Nd Hr Lq Hk Nn Nc. destruct (run_rep dist cents dim vectors x ops T) as [R P]; [apply no_del_last; auto|].
  destruct (search_ok dist cents dim srt _ _ q k Hs R Lq Hk Nn) as (out & E & Top).
  exists (nearest_centroid dist cents), (firstn (Z.to_nat (Z.min (i_nprobe (irun dist x ops)) (Z.of_nat (length cents)))) (srt (centroid_dists dist cents q))), out.
  split; [intros p Hp; apply nearest_ok; auto|]. split; [|auto].
  pose proof (probe_topk dist cents srt (irun dist x ops) q Hs Nc) as Q. rewrite P in *.
  assert (Hm : Z.min (probes (length cents) ops) (Z.of_nat (length cents)) = probes (length cents) ops).
  { apply Z.min_l. unfold probes. clear. assert (G : forall l (n : Z), (n <= Z.of_nat (length cents))%Z ->
      (fold_left (fun n o => match o with ISetProbe m => Z.min m (Z.of_nat (length cents)) | _ => n end) l n <= Z.of_nat (length cents))%Z).
    { induction l as [|o l IH]; intros n H; cbn [fold_left]; auto. apply IH. destruct o; auto. lia. }
    apply G. lia. }
  rewrite Hm in *. exact Q.
Qed.

(** C40. Whatever the distances, and however deletions went while each hit the last vector
    of its list: answers are stored ids with the distances of their vectors. *)
Theorem ivf_search_only_stored dist srt dim cents vectors x ops q k out :
  sort_ok closer srt -> ivf_train (new_ivf dim (length cents)) vectors cents = Ok x ->
  deletes_last dim (nearest_centroid dist cents) [] ops ->
  ivf_search dist srt (irun dist x ops) q k = Ok out ->
  forall d id, In (d, id) out -> exists v, In (id, v) (stored dim ops) /\ d = dist q v.
Proof.
  intros Hs T Hd E d id Hi. destruct (run_rep dist cents dim vectors x ops T Hd) as [R _].
  apply (search_sound dist cents dim srt _ _ q k out Hs R E) in Hi. unfold with_distance in Hi. apply in_map_iff in Hi as ([i v] & [= <- <-] & Hp). exists v. auto.
Qed.

(** C41, partial: as long as every deletion hits a vector after which nothing was put on the
    same list, searches never fail and return the remaining ids with their own vectors. *)
Theorem ivf_delete_last_partial dist srt dim cents vectors x ops q k :
  sort_ok closer srt -> ivf_train (new_ivf dim (length cents)) vectors cents = Ok x ->
  deletes_last dim (nearest_centroid dist cents) [] ops -> (Z.of_nat (length cents) <= probes (length cents) ops)%Z ->
  length q = dim -> (0 <= k)%Z -> distances_are_numbers dist q (map snd (stored dim ops)) ->
  exists out, ivf_search dist srt (irun dist x ops) q k = Ok out /\
    is_topk nearer (Z.to_nat k) (with_distance dist q (stored dim ops)) out.
Proof.
  intros Hs T Hd Np Lq Hk Nn. destruct (run_rep dist cents dim vectors x ops T Hd) as [R P].
  destruct (search_ok dist cents dim srt _ _ q k Hs R Lq Hk Nn) as (out & E & Top). exists out. split; auto.
  rewrite all_probed in Top; auto; [eapply train_pos; eauto|lia].
Qed.

(** Examples and findings: one- and two-list indexes over one dimension, distance as computed by the code. *)
Definition one : N := 1065353216. Definition two : N := 1073741824. Definition ten : N := 1092616192.
Definition cents2 : list (list N) := [[0%N]; [ten]].
Definition index2 : ivf := match ivf_train (new_ivf 1 2) [[0%N]; [ten]] cents2 with Ok x => x | _ => new_ivf 1 2 end.
Definition isrt := isort closer.
Lemma isrt_ok : sort_ok closer isrt.
Proof. apply isort_ok. Qed.
Definition searched (ops : list iop) (q : N) (k : Z) : option (list string) :=
  match ivf_search euclidean_distance isrt (irun euclidean_distance index2 ops) [q] k with Ok l => Some (map snd l) | _ => None end.
Example ivf_history_ok :
  ivf_train (new_ivf 1 2) [[0%N]; [ten]] cents2 = Ok index2 /\
  searched [IAdd "a" [one]; IAdd "b" [ten]; IAdd "c" [two]] 0%N 2 = Some ["a"; "c"] /\
  deletes_last 1 (nearest_centroid euclidean_distance cents2) [] [IAdd "a" [one]; IAdd "b" [ten]; IDelete "a"; IAdd "c" [two]] /\
  searched [IAdd "a" [one]; IAdd "b" [ten]; IDelete "a"; IAdd "c" [two]] 0%N 5 = Some ["c"; "b"].
Proof.
  split; [vm_compute; reflexivity|]. split; [vm_compute; reflexivity|]. split; [|vm_compute; reflexivity].
  split; [exact I|]. split; [exact I|]. split; [|split; [exact I|exact I]].
  set (sf := split_first _ _). vm_compute in sf. subst sf. intros p H. vm_compute in H. destruct H as [<-|[]]. vm_compute. discriminate.
Qed.
Example ivf_hypotheses_ok :
  let ops := [IAdd "a" [one]; IAdd "b" [ten]; IAdd "c" [two]] in
  no_deletions ops /\ (Z.of_nat 2 <= probes 2 ops)%Z /\ distances_are_numbers euclidean_distance [0%N] (map snd (stored 1 ops)) /\
  forall p, In p (stored 1 ops) -> in_reach euclidean_distance cents2 (snd p).
Proof.
  cbv zeta. split; [intros id H; repeat (destruct H as [H|H]; try discriminate); destruct H|]. split; [vm_compute; discriminate|]. split.
  - intros v [<-|[<-|[<-|[]]]]; vm_compute; discriminate.
  - intros p [<-|[<-|[<-|[]]]]; cbn [snd]; [exists [0%N]|exists [ten]|exists [0%N]]; (split; [cbn [In cents2]; auto|vm_compute; reflexivity]).
Qed.

(** C41 refuted: deleting the first of two vectors of one list makes the next search panic. *)
Theorem ivf_delete_refuted : exists ops q,
  ops = [IAdd "a" [one]; IAdd "b" [two]; IDelete "a"] /\ stored 1 ops = [("b", [two])] /\
  ivf_search euclidean_distance isrt (irun euclidean_distance index2 ops) [q] 1 = Panic.
Proof. exists [IAdd "a" [one]; IAdd "b" [two]; IDelete "a"], 0%N. split; [reflexivity|]. split; vm_compute; reflexivity. Qed.
(** ... or silently loses a stored vector and returns another twice. *)
Theorem ivf_delete_wrong_refuted : exists ops q,
  ops = [IAdd "a" [one]; IAdd "b" [two]; IAdd "c" [ten]; IDelete "a"] /\ stored 1 ops = [("b", [two]); ("c", [ten])] /\
  searched ops q 5 = Some ["c"; "c"].
Proof. exists [IAdd "a" [one]; IAdd "b" [two]; IAdd "c" [ten]; IDelete "a"], 0%N. split; [reflexivity|]. split; vm_compute; reflexivity. Qed.
(** An id added twice is still returned, with a vector that was replaced in the caller's eyes, after its deletion. *)
Theorem ivf_duplicate_delete_refuted : exists ops q,
  ops = [IAdd "a" [one]; IAdd "a" [ten]; IDelete "a"] /\ searched ops q 5 = Some ["a"].
Proof. exists [IAdd "a" [one]; IAdd "a" [ten]; IDelete "a"], 0%N. split; [reflexivity|]. vm_compute. reflexivity. Qed.
(** Training again makes the stored vectors unreachable though they are still counted. *)
Theorem ivf_retrain_refuted : exists y,
  ivf_train (irun euclidean_distance index2 [IAdd "a" [one]; IAdd "b" [ten]]) [[0%N]; [ten]] cents2 = Ok y /\
  length (i_ids y) = 2 /\ ivf_search euclidean_distance isrt y [one] 5 = Ok [].
Proof.
  exists (Build_ivf 2 1 cents2 [[]; []] [[one]; [ten]] ["a"; "b"] true 2). split; [vm_compute; reflexivity|]. split; [reflexivity|]. vm_compute; reflexivity.
Qed.
(** A negative k panics. *)
Theorem ivf_negative_k_refuted : ivf_search euclidean_distance isrt index2 [one] (-1) = Panic.
Proof. vm_compute. reflexivity. Qed.

Print Assumptions ivf_search_exact.
Print Assumptions ivf_search_probed.
Print Assumptions ivf_search_only_stored.
Print Assumptions ivf_delete_last_partial.
Print Assumptions ivf_delete_refuted.
Print Assumptions ivf_delete_wrong_refuted.
