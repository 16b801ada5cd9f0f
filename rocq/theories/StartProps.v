(** Theorems about the sessions of a store: opening, snapshots, closing. *)
From Coq Require Import String List NArith ZArith Bool Lia Permutation.
From Coq Require Import Floats.SpecFloat.
From Verif Require Import Base Floats64 TopK HnswModel HnswSpec HnswSearchProofs HnswProofs IvfModel IndexDistModel SnapModel SnapProofs TrainModel StartModel StartProofs.
Import ListNotations.
Open Scope string_scope.
Open Scope list_scope.
Local Notation vec := (list N).

(** A configuration with the given index type; [on] is HNSW.Enabled. *)
Definition conf (on : bool) (t : itype) (np : Z) : sconf :=
  {| sc_on := on; sc_type := t; sc_M := 4; sc_efc := 8; sc_workers := 1; sc_dim := 1; sc_nc := 2; sc_nprobe := np |}.
Definition opening (c : sconf) : sev := SOpen c true (fun _ => 0).
Definition sdist (a b : vec) : float := f64_of_Z (Z.abs (Z.of_N (nth 0 a 0%N) - Z.of_N (nth 0 b 0%N))).
Definition same_v (v : vec) : vec := v.
Definition sorder (l : nodes vec) : nodes vec := rev l.
Lemma sorder_ok l : Permutation (sorder l) l.
Proof. apply Permutation_sym, Permutation_rev. Qed.
Definition go : list sev -> outcome world := srun sdist same_v sdist sorder no_file.
(** The ids that the HNSW index of the open store gives, nearest first. *)
Definition found (w : outcome world) (q : vec) : outcome (list string) :=
  match w with
  | Ok {| w_mem := Some {| m_hnsw := Some h |} |} => bind (hnsw_search sdist h q 10 50) (fun l => Ok (map snd l))
  | Ok {| w_mem := Some {| m_ivf := Some x |} |} => bind (ivf_search sdist (isort closer) x q 10) (fun l => Ok (map snd l))
  | _ => Err EOther
  end.
Definition rows_of (w : outcome world) : list string := match w with Ok w => map fst (f_rows (w_file w)) | _ => [] end.
(** The index holds the vector [x] under [id]. *)
Definition index_holds (h : hnsw vec) (id : string) (x : vec) : Prop := exists n, get (h_nodes h) id = Some n /\ n_del n = false /\ n_vec n = x.

(** *** C214 *)
(** Whatever configurations the sessions on a file have, whatever is written, deleted,
    trained and saved in them, wherever the process dies, whether or not the snapshots are
    readable: every session opens and every call comes back. *)
Theorem sessions_always_open : forall dist keep idist ord es, (forall l, Permutation (ord l) l) ->
  exists w, srun dist keep idist ord no_file es = Ok w.
Proof. intros dist keep idist ord es P. destruct (srun_ok dist keep idist ord P es no_file (no_file_inv ord)) as (w & E & _). eauto. Qed.
Example sessions_always_open_ex :
  let w := go [opening (conf true THnsw 0); SUpsert "a" [1%N] 0; SUpsert "b" [7%N] 0; SDelete "a" 0; SClose true; opening (conf true TIvf 0); SUpsert "c" [4%N] 0; STrain [[4%N]; [7%N]]; SSave true; opening (conf true THnsw 1)] in
  rows_of w = ["b"; "c"] /\ found w [5%N] = Ok ["b"].
Proof. vm_compute. auto. Qed.
Print Assumptions sessions_always_open.

(** *** C215 *)
(** Once a session with an HNSW index of the matching type has saved a snapshot, by Close or
    automatically, and nothing is written any more: through any number of further sessions
    of any kind, closed or killed, saving or failing to, every session with HNSW enabled
    answers every search as the first one did at the save, and the embeddings are the same. *)
Theorem restart_same_answers : forall dist keep idist ord es w m h sv later w' m', (forall l, Permutation (ord l) l) ->
  srun dist keep idist ord no_file es = Ok w -> w_mem w = Some m -> m_hnsw m = Some h -> sc_type (m_conf m) = THnsw -> sv = SSave true \/ sv = SClose true ->
  Forall (fun e => match e with SSave _ | SClose _ => True | SOpen _ reads _ => reads = true | _ => False end) later ->
  srun dist keep idist ord w (sv :: later) = Ok w' -> w_mem w' = Some m' -> sc_on (m_conf m') = true ->
  exists h', m_hnsw m' = Some h' /\ (forall q k ef, hnsw_search dist h' q k ef = hnsw_search dist h q k ef) /\
    (forall id, get (h_nodes h') id = get (h_nodes h) id) /\ f_rows (w_file w') = f_rows (w_file w).
Proof.
  intros dist keep idist ord es w m h sv later w' m' P E Em Eh Et Hsv F E' Em' On. pose proof (reached_inv dist keep idist ord P es w E) as (I1 & I2 & I3).
  pose proof (I2 _ _ Em Eh) as G.
  cbn [srun] in E'. destruct (sstep dist keep idist ord w sv) as [w1| |] eqn:E1; cbn [bind] in E'; try discriminate.
  assert (Sv : save_snapshot ord true m (w_file w) = {| f_rows := f_rows (w_file w); f_hnsw := Some (hnsw_save ord h); f_ivf := f_ivf (w_file w) |}).
  { unfold save_snapshot. rewrite Et, Eh. reflexivity. }
  assert (K : kept_h ord h w1 /\ f_rows (w_file w1) = f_rows (w_file w) /\ forall m1, w_mem w1 = Some m1 -> m1 = m).
  { destruct Hsv as [-> | ->]; cbn [sstep] in E1; rewrite Em in E1; injection E1 as <-; rewrite Sv; (split; [|split; [reflexivity|cbn; congruence]]); (split; cbn [w_file w_mem f_hnsw]; [exists h; split; [exact G|]; split; [apply alike_refl|reflexivity]|]).
    - intros m0 [= <-]. split; [congruence|]. rewrite Eh. intros h2 [= <-]. split; [exact G|apply alike_refl].
    - discriminate. }
  destruct K as (K & R & _). destruct (quiet_run dist keep idist ord P h later w1 w' F K E') as [(_ & K2) R2].
  destruct (K2 m' Em') as [Q1 Q2]. destruct (m_hnsw m') as [h'|]; [|now specialize (Q1 On)]. destruct (Q2 h' eq_refl) as [G' A]. exists h'. split; [reflexivity|].
  split; [intros q k ef; apply alike_search; auto|]. split; [intros id; apply alike_get; auto|congruence].
Qed.
Definition first_session : list sev := [opening (conf true THnsw 0); SUpsert "a" [1%N] 0; SUpsert "b" [7%N] 1; SUpsert "c" [4%N] 0; SDelete "a" 0].
Example restart_same_answers_ex :
  found (go first_session) [5%N] = Ok ["c"; "b"] /\
  found (go (first_session ++ [SSave true; opening (conf false TFlat 0); SClose true; opening (conf true THnsw 0); SSave false; opening (conf true TIvf 0)])) [5%N] = Ok ["c"; "b"].
Proof. vm_compute. auto. Qed.
Print Assumptions restart_same_answers.

(** *** C216 *)
(** The same for the IVF index, which is exactly as it was: also the number of lists probed,
    whatever NProbe the new configuration has. *)
Theorem restart_same_ivf : forall dist keep idist ord es w m x sv later w' m', (forall l, Permutation (ord l) l) ->
  srun dist keep idist ord no_file es = Ok w -> w_mem w = Some m -> m_ivf m = Some x -> i_trained x = true -> sc_type (m_conf m) = TIvf -> sv = SSave true \/ sv = SClose true ->
  Forall (fun e => match e with SSave _ | SClose _ => True | SOpen _ reads _ => reads = true | _ => False end) later ->
  srun dist keep idist ord w (sv :: later) = Ok w' -> w_mem w' = Some m' -> sc_type (m_conf m') = TIvf -> (0 < sc_dim (m_conf m'))%Z ->
  m_ivf m' = Some x /\ f_rows (w_file w') = f_rows (w_file w).
Proof.
  intros dist keep idist ord es w m x sv later w' m' P E Em Ex Tr Et Hsv F E' Em' Et' Hd.
  cbn [srun] in E'. destruct (sstep dist keep idist ord w sv) as [w1| |] eqn:E1; cbn [bind] in E'; try discriminate.
  assert (Sv : save_snapshot ord true m (w_file w) = {| f_rows := f_rows (w_file w); f_hnsw := f_hnsw (w_file w); f_ivf := Some (ivf_save x) |}).
  { unfold save_snapshot. rewrite Et, Ex. cbn [is_hnsw is_ivf]. rewrite Tr. destruct (m_hnsw m); reflexivity. }
  assert (K : kept_i x w1 /\ f_rows (w_file w1) = f_rows (w_file w)).
  { destruct Hsv as [-> | ->]; cbn [sstep] in E1; rewrite Em in E1; injection E1 as <-; rewrite Sv; (split; [|reflexivity]); (split; cbn [w_file w_mem f_ivf]; [reflexivity|]).
    - intros m0 [= <-]. auto.
    - discriminate. }
  destruct K as (K & R). destruct (quiet_run_i dist keep idist ord x later w1 w' F K E') as [(_ & K2) R2].
  destruct (K2 m' Em') as [Q1 _]. split; [apply Q1; [rewrite Et'; reflexivity|exact Hd]|congruence].
Qed.
Definition ivf_session : list sev := [opening (conf false TIvf 1); SUpsert "a" [1%N] 0; SUpsert "b" [7%N] 0; STrain [[1%N]; [7%N]]; SUpsert "c" [3%N] 0].
Example restart_same_ivf_ex :
  found (go ivf_session) [5%N] = Ok ["b"] /\ found (go (ivf_session ++ [SClose true; opening (conf false TFlat 1); SClose true; opening (conf false TIvf 1)])) [5%N] = Ok ["b"].
Proof. vm_compute. auto. Qed.
Print Assumptions restart_same_ivf.
(** Refuted: a configuration that asks for more lists to be probed has no effect on a file
    with a snapshot; the same file without one finds everything. *)
Theorem nprobe_config_refuted : exists w x, go (ivf_session ++ [SClose true; opening (conf false TIvf 2)]) = Ok w /\
  option_map m_ivf (w_mem w) = Some (Some x) /\ i_nprobe x = 1%Z /\ rows_of (Ok w) = ["a"; "b"; "c"] /\ found (Ok w) [5%N] = Ok ["b"] /\
  found (go (ivf_session ++ [SClose false; opening (conf false TIvf 2); STrain [[1%N]; [7%N]]])) [5%N] = Ok ["c"; "b"; "a"].
Proof. do 2 eexists. split; [vm_compute; reflexivity|]. split; [reflexivity|]. vm_compute. auto. Qed.
Print Assumptions nprobe_config_refuted.

(** *** C217 *)
(** A session with HNSW enabled that finds no snapshot, cannot read it, or finds one that
    breaks off before its entry point starts with an index of exactly the stored
    embeddings. *)
Theorem rebuilt_index_exact : forall dist keep idist ord es w c reads rand g, (forall l, Permutation (ord l) l) ->
  srun dist keep idist ord no_file es = Ok w -> sc_on c = true ->
  (g = None \/ reads = false \/ exists l, g = Some l /\ forall M e p r, l <> GInt M :: GInt e :: GStr p :: r) ->
  exists m h, start dist keep c reads rand {| f_rows := f_rows (w_file w); f_hnsw := g; f_ivf := f_ivf (w_file w) |} = Ok m /\ m_hnsw m = Some h /\
    (forall id x, index_holds h id x <-> exists v, In (id, v) (f_rows (w_file w)) /\ x = keep v) /\
    (forall q k ef, (0 <= k)%Z -> exists out, hnsw_search dist h q k ef = Ok out).
Proof.
  intros dist keep idist ord es w c reads rand g P E On Hg. pose proof (reached_inv dist keep idist ord P es w E) as (_ & _ & N).
  assert (L : exists h0, load_hnsw reads (new_hnsw (sc_M c) (sc_efc c)) g = (h0, false) /\ h_nodes h0 = [] /\ h_entry h0 = "").
  { unfold load_hnsw. destruct Hg as [-> | [-> |(l & -> & Hl)]]; [destruct reads| |destruct reads]; try (eexists; split; [reflexivity|]; auto; fail).
    unfold hnsw_load. destruct l as [|[]]; cbn [dec_int]; try (eexists; split; [reflexivity|]; auto; fail).
    destruct l as [|[]]; cbn [dec_int]; try (eexists; split; [reflexivity|]; auto; fail).
    destruct l as [|[]]; cbn [dec_str]; try (eexists; split; [reflexivity|]; auto; fail). exfalso. eapply Hl. reflexivity. }
  destruct L as (h0 & El & En & Ee).
  assert (G0 : Good h0).
  { split; [rewrite En; constructor; [constructor|discriminate|discriminate]|]. split; [intros H; congruence|]. intros _ H. congruence. }
  destruct (rebuild_good dist keep c rand h0 (f_rows (w_file w)) G0) as (h & Er & Gh & Pr).
  unfold start, start_hnsw. rewrite On. cbn [f_hnsw f_rows]. rewrite El, Er. cbn [bind]. eexists. exists h. split; [reflexivity|]. split; [reflexivity|].
  rewrite En in Pr. cbn [proj map] in Pr. rewrite insert_fold in Pr by (cbn; exact N). cbn [app] in Pr. split.
  - intros id x. split.
    + intros (n & Hn & Hd & <-). apply proj_get in Hn. rewrite Pr in Hn. apply in_map_iff in Hn as ([i v] & Hv & Hi). injection Hv as -> Hx _. exists v. split; [exact Hi|now symmetry].
    + intros (v & Hi & ->). assert (Hp : In (id, (keep v, false)) (proj (h_nodes h))) by (rewrite Pr; apply in_map_iff; exists (id, v); auto).
      unfold proj in Hp. apply in_map_iff in Hp as ([i n] & Hv & Hn). cbn in Hv. injection Hv as -> H1 H2. exists n. split; [apply in_get_eq; [apply Gh|exact Hn]|]. auto.
  - intros q k ef Hk. destruct (search_sound_lemma dist h q k ef Gh Hk) as (out & Eo & _). eauto.
Qed.
Example rebuilt_index_exact_ex : exists w m, go first_session = Ok w /\
  start sdist same_v (conf true THnsw 0) true (fun _ => 0) {| f_rows := f_rows (w_file w); f_hnsw := Some [GInt 4; GInt 8]; f_ivf := None |} = Ok m /\
  found (Ok {| w_file := w_file w; w_mem := Some m |}) [5%N] = Ok ["c"; "b"].
Proof. do 2 eexists. split; [vm_compute; reflexivity|]. split; [vm_compute; reflexivity|]. vm_compute. reflexivity. Qed.
Print Assumptions rebuilt_index_exact.
(** Refuted for a snapshot that breaks off later: the session panics while it opens, or the
    first search does with IVF. *)
Theorem damaged_snapshot_refuted :
  (exists w g, go [opening (conf true THnsw 0); SUpsert "a" [1%N] 0; SUpsert "b" [7%N] 1; SClose true] = Ok w /\ f_hnsw (w_file w) = Some g /\ rows_of (Ok w) = ["a"; "b"] /\
     start sdist same_v (conf true THnsw 0) true (fun _ => 0) {| f_rows := f_rows (w_file w); f_hnsw := Some (firstn 4 g); f_ivf := None |} = Panic) /\
  (exists w g m, go (ivf_session ++ [SClose true]) = Ok w /\ f_ivf (w_file w) = Some g /\
     start sdist same_v (conf false TIvf 1) true (fun _ => 0) {| f_rows := f_rows (w_file w); f_hnsw := None; f_ivf := Some (firstn 6 g) |} = Ok m /\
     found (Ok {| w_file := w_file w; w_mem := Some m |}) [5%N] = Panic).
Proof.
  split; [do 2 eexists|do 3 eexists]; (split; [vm_compute; reflexivity|]); (split; [reflexivity|]); (split; [vm_compute; reflexivity|]); vm_compute; reflexivity.
Qed.
Print Assumptions damaged_snapshot_refuted.

(** *** C218 *)
(** Refuted: that a session started with a snapshot finds what is stored when every session
    was closed properly. What a session without HNSW writes or deletes is not in the
    snapshot of the session before it, and no later session notices. *)
Theorem changed_configuration_refuted : exists w,
  go (first_session ++ [SClose true; opening (conf false TFlat 0); SUpsert "d" [5%N] 0; SDelete "c" 0; SClose true; opening (conf true THnsw 0)]) = Ok w /\
  rows_of (Ok w) = ["b"; "d"] /\ found (Ok w) [5%N] = Ok ["c"; "b"] /\
  found (go (first_session ++ [SClose true; opening (conf false TFlat 0); SUpsert "d" [5%N] 0; SDelete "c" 0; SClose true; opening (conf true THnsw 0); SClose true; opening (conf true THnsw 0)])) [5%N] = Ok ["c"; "b"].
Proof.
  eexists. split; [vm_compute; reflexivity|]. split; [vm_compute; reflexivity|]. split; [vm_compute; reflexivity|]. vm_compute. reflexivity.
Qed.
Print Assumptions changed_configuration_refuted.
