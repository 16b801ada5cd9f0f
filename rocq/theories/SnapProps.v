(** Theorems about ExportIndex and ImportIndex. *)
From Coq Require Import String List NArith ZArith Bool Lia Permutation.
From Coq Require Import Floats.SpecFloat.
From Verif Require Import Base Floats64 HeapModel HnswModel HnswSpec HnswSearchProofs HnswProofs IvfModel SnapModel SnapProofs.
Import ListNotations.
Open Scope string_scope.
Open Scope list_scope.
Local Notation vec := (list N).

(** An open store with the given configuration and indexes, for the examples. *)
Definition ex_store (enabled : bool) (h : option (hnsw vec)) (i : option ivf) : xstore :=
  {| x_closed := false; x_enabled := enabled; x_M := 4; x_efc := 8; x_dim := 1; x_nc := 2; x_hnsw := h; x_ivf := i |}.
Definition ex_dist (a b : vec) : float := f64_of_Z (Z.abs (Z.of_N (nth 0 a 0%N) - Z.of_N (nth 0 b 0%N))).
Definition ex_keep (v : vec) : vec := v.
Definition ex_history : list (hop vec) := [HInsert "a" [1%N] 1; HInsert "b" [7%N] 0; HInsert "c" [4%N] 0; HDelete "b" 0].

(** *** C205 *)
(** Exporting the index of a store, whatever was inserted and deleted before, and importing
    the file into any store with HNSW enabled, whatever its index held before: the imported
    index answers every search as the exported one, holds the same nodes with the same
    links and marks, and every further history of inserts and deletes runs on it. The
    other index of the store stays as it is. *)
Theorem index_export_import : forall dist keep M efc ops h ord s t old,
  hrun dist keep (new_hnsw M efc) ops = Ok h -> (forall l, Permutation (ord l) l) ->
  x_closed s = false -> x_hnsw s = Some h -> x_closed t = false -> x_enabled t = true ->
  exists f t' h', export_index ord true None s old = (Some f, Ok tt) /\ import_index t (Some f) = (t', Ok tt) /\
    x_hnsw t' = Some h' /\ x_ivf t' = x_ivf t /\
    (forall q k ef, hnsw_search dist h' q k ef = hnsw_search dist h q k ef) /\
    (forall id, get (h_nodes h') id = get (h_nodes h) id) /\
    h_M h' = M /\ h_efc h' = efc /\ h_entry h' = h_entry h /\ hnsw_size h' = hnsw_size h /\
    (forall ops', exists h2, hrun dist keep h' ops' = Ok h2).
Proof.
  intros dist keep M efc ops h ord s t old E P Cs Hs Ct Et. destruct (run_new dist keep M efc ops h E) as (Gd & _ & EM & Ee & _).
  pose proof (w_nodup _ (proj1 Gd)) as N. exists (hnsw_save ord h). unfold export_index, import_index. rewrite Cs, Hs, Ct, Et. cbn [negb].
  rewrite (hnsw_load_saved ord _ h N P). set (h' := Hnsw (h_M h) (h_efc h) (ord (h_nodes h)) (h_entry h)). exists (with_indexes t (Some h') (x_ivf t)), h'.
  split; [reflexivity|]. split; [reflexivity|]. split; [reflexivity|]. split; [reflexivity|]. pose proof (perm_get _ _ N (P (h_nodes h))) as G. split.
  { intros q k ef. destruct h as [M0 efc0 ns e]. apply hnsw_search_ext; [exact G|apply Permutation_length, P]. }
  split; [exact G|]. split; [exact EM|]. split; [exact Ee|]. split; [reflexivity|]. split.
  - unfold hnsw_size, alive_ids. cbn [h_nodes h']. rewrite !map_length. generalize (P (h_nodes h)). generalize (ord (h_nodes h)) (h_nodes h). clear. intros a b H.
    induction H as [|x a1 b1 H IH|x y a1|a1 b1 c1 H1 IH1 H2 IH2]; cbn; auto; [destruct (negb (n_del (snd x))); cbn; auto|destruct (negb (n_del (snd x))), (negb (n_del (snd y))); auto|congruence].
  - intros ops'. destruct (run_good dist keep ops' h') as (h2 & E2 & _); [|eauto]. apply good_perm; auto.
Qed.
Example index_export_import_ex : exists h t' h', hrun ex_dist ex_keep (new_hnsw 4 8) ex_history = Ok h /\
  import_index (ex_store true None None) (fst (export_index (@rev _) true None (ex_store true (Some h) None) None)) = (t', Ok tt) /\
  x_hnsw t' = Some h' /\ map fst (h_nodes h') = ["c"; "b"; "a"] /\ hnsw_size h' = 2.
Proof. do 3 eexists. split; [vm_compute; reflexivity|]. split; [vm_compute; reflexivity|]. split; [reflexivity|]. vm_compute. auto. Qed.
Print Assumptions index_export_import.

(** *** C206 *)
(** Saving an IVF index and loading the file into any other one gives the same index. *)
Theorem ivf_save_load : forall x y, ivf_load y (ivf_save x) = (x, true).
Proof. exact ivf_load_saved. Qed.
Example ivf_save_load_ex : exists x, ivf_add (fun _ _ => f64_of_Z 0) {| i_nc := 1; i_dim := 1; i_cents := [[3%N]]; i_inv := [[]]; i_vecs := []; i_ids := []; i_trained := true; i_nprobe := 1 |} "a" [5%N] = Ok x /\
  ivf_load (new_ivf 4 9) (ivf_save x) = (x, true) /\ i_ids x = ["a"].
Proof. eexists. split; [vm_compute; reflexivity|]. split; reflexivity. Qed.
Print Assumptions ivf_save_load.

(** *** C207 *)
(** A file cut short anywhere, as a writer that runs out of room leaves it, is reported: the
    export of it failed, and importing it fails. *)
Lemma field_prefix {T} (dec : gfile -> option (T * gfile)) set k x f : dec f = None -> snd (field dec set k x f) = false.
Proof. unfold field. now intros ->. Qed.
Theorem cut_index_file_reported : forall ord h i s t old n, (forall l, Permutation (ord l) l) ->
  x_closed s = false -> x_closed t = false -> x_enabled t = true -> x_hnsw s = h -> x_ivf s = i -> h <> None \/ i <> None ->
  forall full, fst (export_index ord true None s old) = Some full -> (n < length full)%nat ->
  export_index ord true (Some n) s old = (Some (firstn n full), Err EOther) /\
  exists t', import_index t (Some (firstn n full)) = (t', Err EOther).
Proof.
  intros ord h i s t old n P Cs Ct Et Eh Ei Hne full F Hn. unfold export_index, import_index in *. rewrite Cs in F |- *. rewrite Ct, Et. cbn [negb] in *. rewrite Eh, Ei in F |- *.
  assert (Dec : forall h0, snd (hnsw_load h0 (firstn n full)) = false /\ forall i0, snd (ivf_load i0 (firstn n full)) = false).
  { intros h0. destruct h as [h|]; [|destruct i as [i|]; [|destruct Hne; congruence]]; cbn in F; injection F as <-.
    - do 4 (destruct n as [|n]; [cbn; split; [reflexivity|intros; reflexivity]|]). split; [|intros; reflexivity].
      unfold hnsw_save. cbn [app firstn hnsw_load dec_int dec_str h_M h_efc h_nodes h_entry]. rewrite Nat2Z.id.
      destruct (load_nodes (length (h_nodes h)) (firstn n (map (fun p => GNode (fst p) (snd p)) (ord (h_nodes h)))) []) as [ns ok] eqn:El. cbn [snd].
      unfold hnsw_save in Hn. cbn [length app] in Hn. rewrite map_length in Hn. rewrite firstn_map in El.
      assert (Le : Permutation (ord (h_nodes h)) (h_nodes h)) by apply P. apply Permutation_length in Le. rewrite Le in Hn.
      replace (firstn n (ord (h_nodes h))) with (firstn n (firstn n (ord (h_nodes h)))) in El by (rewrite firstn_firstn; f_equal; lia).
      pose proof (load_cut (firstn n (ord (h_nodes h))) n [] (length (h_nodes h))) as Hc. rewrite El in Hc. apply Hc. rewrite firstn_length. lia.
    - cbn [ivf_save length] in Hn. do 8 (destruct n as [|n]; [split; [reflexivity|intros; reflexivity]|]). lia. }
  assert (El : firstn n full <> full) by (intros E; assert (length (firstn n full) = length full) by congruence; rewrite firstn_length in *; lia).
  split.
  - destruct h as [h|]; [|destruct i as [i|]; [|destruct Hne; congruence]]; injection F as <-; (destruct (Nat.ltb_spec n (length (hnsw_save ord h))) || idtac).
    + reflexivity.
    + lia.
    + destruct (Nat.ltb_spec n (length (ivf_save i))); [reflexivity|lia].
  - specialize (Dec (match x_hnsw t with Some h => h | None => new_hnsw (x_M t) (x_efc t) end)) as [D1 D2].
    specialize (D2 (match x_ivf t with Some i => i | None => new_ivf (x_dim t) (x_nc t) end)).
    destruct (hnsw_load _ (firstn n full)) as [h1 ok1]. destruct (ivf_load _ (firstn n full)) as [i1 ok2]. cbn in D1, D2. subst. eexists. reflexivity.
Qed.
Example cut_index_file_reported_ex : exists h full, hrun ex_dist ex_keep (new_hnsw 4 8) ex_history = Ok h /\
  fst (export_index (fun l => l) true None (ex_store true (Some h) None) None) = Some full /\ length full = 7%nat.
Proof. do 2 eexists. split; [vm_compute; reflexivity|]. split; vm_compute; reflexivity. Qed.
Print Assumptions cut_index_file_reported.

(** *** C208 *)
(** But a failed import does not leave the index as it was: a store that answered searches
    panics at the next one. *)
Theorem failed_import_refuted : exists h f t' h' q r, hrun ex_dist ex_keep (new_hnsw 4 8) ex_history = Ok h /\
  hnsw_search ex_dist h q 2 50 = Ok r /\ length r = 2%nat /\
  import_index (ex_store true (Some h) None) (Some f) = (t', Err EOther) /\ x_hnsw t' = Some h' /\
  (exists h0 ops, hrun ex_dist ex_keep (new_hnsw 4 8) ops = Ok h0 /\ f = firstn 4 (hnsw_save (fun l => l) h0)) /\
  hnsw_search ex_dist h' q 2 50 = Panic.
Proof.
  eexists. exists [GInt 4; GInt 8; GStr "z"; GInt 1]. do 2 eexists. exists [3%N]. eexists. split; [vm_compute; reflexivity|]. split; [vm_compute; reflexivity|]. split; [reflexivity|].
  split; [vm_compute; reflexivity|]. split; [reflexivity|]. split; [|vm_compute; reflexivity].
  eexists. exists [HInsert "z" [2%N] 0]. split; vm_compute; reflexivity.
Qed.
Print Assumptions failed_import_refuted.

(** *** C209 *)
(** Importing the file of an IVF index into a store with HNSW reports success, but searches
    go on using the HNSW index with its own nodes, whose parameters are now the number of
    centroids and the dimension of the IVF index. *)
Theorem import_ivf_file : forall x t h, x_closed t = false -> x_enabled t = true -> x_hnsw t = Some h ->
  exists t', import_index t (Some (ivf_save x)) = (t', Ok tt) /\ x_ivf t' = Some x /\ x_hnsw t' = Some (Hnsw (i_nc x) (i_dim x) (h_nodes h) (h_entry h)).
Proof.
  intros x t h C E H. unfold import_index. rewrite C, E, H. pose proof (ivf_save_load x (match x_ivf t with Some i => i | None => new_ivf (x_dim t) (x_nc t) end)) as S.
  change (hnsw_load h (ivf_save x)) with (Hnsw (Z.to_nat (Z.of_nat (i_nc x))) (Z.to_nat (Z.of_nat (i_dim x))) (h_nodes h) (h_entry h), false). rewrite !Nat2Z.id. cbv iota beta. rewrite S. eexists. split; [reflexivity|]. split; reflexivity.
Qed.
Example import_ivf_file_ex : exists h, hrun ex_dist ex_keep (new_hnsw 4 8) ex_history = Ok h /\ x_hnsw (fst (import_index (ex_store true (Some h) None) (Some (ivf_save (new_ivf 1 0))))) = Some (Hnsw 0 1 (h_nodes h) (h_entry h)).
Proof. eexists. split; vm_compute; reflexivity. Qed.
Print Assumptions import_ivf_file.
(** A store whose only index is IVF exports it and cannot import it back. *)
Theorem ivf_import_refuted : forall ord x s old, x_closed s = false -> x_enabled s = false -> x_hnsw s = None -> x_ivf s = Some x ->
  export_index ord true None s old = (Some (ivf_save x), Ok tt) /\ import_index s (Some (ivf_save x)) = (s, Err EOther).
Proof. intros ord x s old C E H I. unfold export_index, import_index. rewrite C, E, H, I. auto. Qed.
Example ivf_import_refuted_ex : x_ivf (ex_store false None (Some (new_ivf 1 2))) = Some (new_ivf 1 2).
Proof. reflexivity. Qed.
Print Assumptions ivf_import_refuted.

(** *** C210 *)
(** An export that fails for want of an index has emptied the file first: the export that
    was there is gone. *)
Theorem failed_export_refuted : exists h old new t', hrun ex_dist ex_keep (new_hnsw 4 8) ex_history = Ok h /\ old = hnsw_save (fun l => l) h /\
  snd (import_index (ex_store true None None) (Some old)) = Ok tt /\
  export_index (fun l => l) true None (ex_store true None None) (Some old) = (Some new, Err EOther) /\
  import_index (ex_store true None None) (Some new) = (t', Err EOther).
Proof. do 4 eexists. split; [vm_compute; reflexivity|]. split; [reflexivity|]. split; [vm_compute; reflexivity|]. split; [vm_compute; reflexivity|]. vm_compute. reflexivity. Qed.
Print Assumptions failed_export_refuted.

(** *** C211 *)
(** Calls that are refused change nothing: on a closed store, with a file that cannot be
    created or opened, or without HNSW in the configuration. *)
Theorem index_calls_refused : forall ord creates room s file,
  (x_closed s = true -> export_index ord creates room s file = (file, Err EClosed) /\ import_index s file = (s, Err EClosed)) /\
  (x_closed s = false -> export_index ord false room s file = (file, Err EOther) /\ import_index s None = (s, Err EOther)) /\
  (x_closed s = false -> x_enabled s = false -> import_index s file = (s, Err EOther)).
Proof.
  intros ord creates room s file. unfold export_index, import_index. split; [intros ->; auto|]. split; [intros ->; auto|].
  intros -> ->. destruct file; auto.
Qed.
Example index_calls_refused_ex : x_closed (ex_store false None None) = false /\ x_enabled (ex_store false None None) = false.
Proof. auto. Qed.
Print Assumptions index_calls_refused.
