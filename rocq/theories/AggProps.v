(** C32: aggregations, for every reachable store, request, scan order and sort. *)
From Coq Require Import String Ascii List NArith ZArith Bool Permutation Sorted Lia.
From Coq Require Import Floats.SpecFloat.
From Verif Require Import Base Floats64 TopK EncodingModel StoreModel StoreSpec StoreProofs StoreInv StoreProofs2 StoreProps SearchModel SearchProps
  SqlModel FilterModel FilterSpec FilterProofs FilterProofs2 FilterProps DiversityProofs MultiVecProofs AggModel AggSpec AggProofs.
Import ListNotations.
Open Scope string_scope.
Open Scope list_scope.

(** *** examples *)
Definition simple_aggs : sql_aggs :=
  {| sql_sum := fun l => match l with [] => None | _ => Some (fold_left f64_add l f_zero) end;
     sql_avg := fun l => match l with [] => None | _ => Some (f64_div (fold_left f64_add l f_zero) (f64_of_Z (Z.of_nat (length l)))) end |}.
Definition emb_coll (id col : string) (v : list N) (m : smap) : embedding :=
  {| e_id := id; e_collid := 0; e_coll := col; e_vec := Some v; e_content := "text"; e_doc := ""; e_meta := Some m; e_acl := [] |}.
Definition shop : list op :=
  [OCreateColl "c" 2; OUpsert (emb_coll "a" "" v10 [("kind", "x"); ("price", "3")]); OUpsert (emb_coll "b" "c" v10 [("kind", "x"); ("price", "5")]);
   OUpsert (emb_coll "d" "c" v01 [("kind", "y"); ("price", "1")]); OUpsert (emb_coll "e" "c" v01 [("kind", "x")]); OUpsert (emb_coll "f" "c" v01 [("price", "7")])].
Definition request (t : agg_type) (field : string) (g : list string) (fs : list (string * gval)) (coll : string) (hs : list (agg_col * gval)) (o : agg_col) (l : Z) : agg_request :=
  {| q_type := t; q_field := field; q_group := g; q_filters := fs; q_coll := coll; q_having := hs; q_order := o; q_limit := l |}.
Definition agg (s : store list_index) := aggregate_store list_index integers simple_aggs (fun l => l) (@isort _) s.
Lemma plain_kind : plain_field "kind". Proof. repeat split; discriminate || reflexivity. Qed.
Lemma plain_price : plain_field "price". Proof. repeat split; discriminate || reflexivity. Qed.
Lemma shop_metadata : all_have_metadata list_index (filled shop).
Proof.
  intros id e H. apply get_ok_inv in H as (r & _ & _ & S & _ & _ & _ & Hr). apply scan_meta in S. rewrite <- S.
  assert (A : forallb (fun r => match r_meta r with Some _ => true | None => false end) (t_rows (st_db list_index (filled shop))) = true) by (vm_compute; reflexivity).
  rewrite forallb_forall in A. specialize (A r Hr). destruct (r_meta r); [discriminate|discriminate A].
Qed.

(** ** C32 *)
(** A count is the number of stored embeddings in the collection whose fields equal the
    filter values. *)
Theorem count_exact :
  forall I Nm A scan gsrt envs s q fs, reachable I envs s -> st_closed I s = false ->
  q_type q = TCount -> q_filters q = text_filters fs -> Forall (fun kx => plain_field (fst kx)) fs -> fs = [] \/ all_have_metadata I s ->
  exists es, lists_exactly I s (selected (q_coll q) fs) es /\
  aggregate_store I Nm A scan gsrt s q = Ok [{| a_keys := []; a_value := VCount (length es); a_count := length es |}].
Proof.
  intros I Nm A scan gsrt envs s q fs R C T F P M. destruct (select_exact I s envs None q fs R C F P Logic.I) as (rows & E & L); [tauto|].
  destruct (L rows (Permutation_refl _)) as (es & H & X1 & X2). exists es. split.
  - split; [exact X1|]. intros e. rewrite X2. unfold wanted_row. tauto.
  - unfold aggregate_store. rewrite C, T, E. cbn [bind]. rewrite (Forall2_len _ _ _ H). reflexivity.
Qed.
Example count_exact_ex :
  agg (filled shop) (request TCount "" [] (text_filters [("kind", "x")]) "c" [] ColCount 0) = Ok [{| a_keys := []; a_value := VCount 2; a_count := 2 |}] /\
  agg (filled shop) (request TCount "" [] [] "" [] ColCount 0) = Ok [{| a_keys := []; a_value := VCount 5; a_count := 5 |}] /\
  Forall (fun kx : string * string => plain_field (fst kx)) [("kind", "x")].
Proof. split; [vm_compute; reflexivity|]. split; [vm_compute; reflexivity|]. constructor; [apply plain_kind|constructor]. Qed.

(** Sums, averages, minima and maxima are those of the numeric readings of the field of
    exactly the selected embeddings that have it, and the count is their number. *)
Theorem field_aggregate_exact :
  forall I Nm A scan gsrt envs s q fs, reachable I envs s -> st_closed I s = false -> (forall l, Permutation l (scan l)) ->
  q_filters q = text_filters fs -> Forall (fun kx => plain_field (fst kx)) fs -> plain_field (q_field q) -> all_have_metadata I s ->
  (forall id e a, get_by_id I s id = Ok e -> field_of (q_field q) e = Some a -> not_nan (sql_real Nm a)) ->
  q_type q = TSum \/ q_type q = TAvg \/ q_type q = TMin \/ q_type q = TMax ->
  exists es x, lists_exactly I s (fun e => selected (q_coll q) fs e /\ field_of (q_field q) e <> None) es /\
  aggregate_store I Nm A scan gsrt s q = Ok [{| a_keys := []; a_value := VReal x; a_count := length es |}] /\
  let xs := readings Nm (q_field q) es in
  match q_type q with
  | TSum => x = match sql_sum A xs with Some y => y | None => f_zero end
  | TAvg => x = match sql_avg A xs with Some y => y | None => f_zero end
  | TMin => if Nat.eqb (length es) 0 then x = f_zero else In x xs /\ forall y, In y xs -> flt y x = false
  | _ => if Nat.eqb (length es) 0 then x = f_zero else In x xs /\ forall y, In y xs -> flt x y = false
  end.
Proof.
  intros I Nm A scan gsrt envs s q fs R C Hs F P K M Nn T.
  destruct (select_exact I s envs (Some (q_field q)) q fs R C F P K) as (rows & E & L); [tauto|].
  destruct (L (scan rows) (Hs rows)) as (es & H & X). exists es.
  assert (Er : reals Nm (q_field q) (scan rows) = readings Nm (q_field q) es) by (apply (reals_readings I Nm s _ _ _ _ K H X); intros e [_ He]; exact He).
  assert (El : length rows = length es) by (rewrite (Permutation_length (Hs rows)); exact (Forall2_len _ _ _ H)).
  assert (Kn : q_field q <> "") by apply K.
  assert (G : forall f, agg_field f Nm scan (st_db I s) q = Ok [{| a_keys := []; a_value := VReal (match f (readings Nm (q_field q) es) with Some x => x | None => f_zero end); a_count := length es |}]).
  { intros f. unfold agg_field. rewrite E. cbn [bind]. rewrite Er, El. reflexivity. }
  assert (Nx : forall y, In y (readings Nm (q_field q) es) -> not_nan y).
  { unfold readings. intros y Hy. apply in_map_iff in Hy as (e & <- & He). apply (proj2 X) in He as [He _]. destruct (field_of _ e) eqn:Ef; [exact (Nn _ _ _ He Ef)|discriminate]. }
  unfold aggregate_store. rewrite C. apply String.eqb_neq in Kn.
  assert (Lr : length (readings Nm (q_field q) es) = length es) by apply map_length.
  destruct T as [T|[T|[T|T]]]; rewrite T, Kn, G; (eexists; split; [exact X|]; split; [reflexivity|]); cbv zeta; auto.
  - destruct (Nat.eqb_spec (length es) 0) as [E0|E0]; destruct (readings Nm (q_field q) es) as [|y l]; try (cbn in Lr; lia); [reflexivity|].
    cbn [sql_min]. destruct (fold_min l y) as [B1 B2]. split; [exact B1|]. apply B2. exact Nx.
  - destruct (Nat.eqb_spec (length es) 0) as [E0|E0]; destruct (readings Nm (q_field q) es) as [|y l]; try (cbn in Lr; lia); [reflexivity|].
    cbn [sql_max]. destruct (fold_max l y) as [B1 B2]. split; [exact B1|]. apply B2. exact Nx.
Qed.
Example field_aggregate_exact_ex :
  agg (filled shop) (request TMin "price" [] [] "c" [] ColCount 0) = Ok [{| a_keys := []; a_value := VReal (f64_of_Z 1); a_count := 3 |}] /\
  agg (filled shop) (request TMax "price" [] (text_filters [("kind", "x")]) "" [] ColCount 0) = Ok [{| a_keys := []; a_value := VReal (f64_of_Z 5); a_count := 2 |}] /\
  agg (filled shop) (request TSum "price" [] [] "" [] ColCount 0) = Ok [{| a_keys := []; a_value := VReal (f64_of_Z 16); a_count := 4 |}] /\
  agg (filled shop) (request TAvg "price" [] [] "" [] ColCount 0) = Ok [{| a_keys := []; a_value := VReal (f64_of_Z 4); a_count := 4 |}] /\
  agg (filled shop) (request TMin "price" [] [] "none" [] ColCount 0) = Ok [{| a_keys := []; a_value := VReal f_zero; a_count := 0 |}] /\
  all_have_metadata list_index (filled shop) /\ plain_field "price" /\
  forall id e a, get_by_id list_index (filled shop) id = Ok e -> field_of "price" e = Some a -> not_nan (sql_real integers a).
Proof.
  split; [vm_compute; reflexivity|]. split; [vm_compute; reflexivity|]. split; [vm_compute; reflexivity|]. split; [vm_compute; reflexivity|]. split; [vm_compute; reflexivity|].
  split; [apply shop_metadata|]. split; [apply plain_price|]. 
  intros id e a H F. apply get_ok_inv in H as (r & _ & _ & S & _ & _ & _ & Hr). apply scan_meta in S. unfold field_of in F. rewrite <- S in F.
  assert (A : forallb (fun r => match r_meta r with Some m => match assoc "price" m with Some a => negb (is_nanb (sql_real integers a)) | None => true end | None => true end)
    (t_rows (st_db list_index (filled shop))) = true) by (vm_compute; reflexivity).
  rewrite forallb_forall in A. specialize (A r Hr). destruct (r_meta r) as [m|]; [|discriminate]. rewrite F in A. intros B. rewrite B in A. discriminate.
Qed.

(** Grouping splits the selected embeddings by the values of the group fields: each
    combination that occurs is one group with the number of its embeddings, and these
    numbers add up to the number of selected embeddings; the results show the groups that
    pass Having, in the requested order, at most Limit of them. *)
Theorem group_by_exact :
  forall I Nm A scan gsrt envs s q fs, reachable I envs s -> st_closed I s = false -> (forall lt, sort_ok lt (gsrt lt)) ->
  q_type q = TGroupBy -> q_group q <> [] -> Forall plain_field (q_group q) ->
  q_filters q = text_filters fs -> Forall (fun kx => plain_field (fst kx)) fs -> all_have_metadata I s ->
  exists es groups kept out results,
    lists_exactly I s (selected (q_coll q) fs) es /\
    NoDup (map fst groups) /\ (forall g n, In (g, n) groups <-> 0 < n /\ group_size (q_group q) es g n) /\
    list_sum (map snd groups) = length es /\
    NoDup (map fst kept) /\ (forall g n, In (g, n) kept <-> In (g, n) groups /\ passes (q_having q) g n) /\
    is_topk (ranks_before (q_order q)) (if (0 <? q_limit q)%Z then Z.to_nat (q_limit q) else length kept) kept out /\
    Forall2 (group_result Nm (q_group q)) out results /\
    aggregate_store I Nm A scan gsrt s q = Ok results.
Proof.
  intros I Nm A scan gsrt envs s q fs R C Hs T G Gp F P M. destruct (select_exact I s envs None q fs R C F P Logic.I) as (rows & E & L); [tauto|].
  destruct (L rows (Permutation_refl _)) as (es & H & X1 & X2).
  assert (K : all_keys (q_group q) rows = Some (map (group_of (q_group q)) es)).
  { apply (keys_group I s); auto. intros e He. apply X2 in He as [He _]. eapply M; eauto. }
  set (groups := group_rows (map (group_of (q_group q)) es)). set (kept := filter (having (q_having q)) groups).
  set (sorted := gsrt (group_before (q_order q)) kept).
  set (out := if (0 <? q_limit q)%Z then firstn (Z.to_nat (q_limit q)) sorted else sorted).
  exists es, groups, kept, out, (map (report_group Nm q) out).
  assert (O : is_topk (group_before (q_order q)) (if (0 <? q_limit q)%Z then Z.to_nat (q_limit q) else length kept) kept out).
  { unfold out. destruct (0 <? q_limit q)%Z.
    - apply topk_of_sort; [apply Hs|apply group_before_order].
    - rewrite <- (firstn_all sorted). unfold sorted at 1. rewrite <- (Permutation_length (proj1 (Hs (group_before (q_order q)) kept))).
      apply topk_of_sort; [apply Hs|apply group_before_order]. }
  split; [split; [exact X1|]; intros e; rewrite X2; unfold wanted_row; tauto|].
  split; [apply group_rows_nodup|]. split; [intros g n; apply group_in; exact X1|].
  split; [unfold groups; rewrite group_rows_sum; apply map_length|].
  split; [apply NoDup_map_filter, group_rows_nodup|].
  split; [intros g n; unfold kept; rewrite filter_In, having_passes; tauto|].
  split; [eapply is_topk_ext; [intros; apply group_before_ranks|exact O]|].
  split.
  - apply Forall2_map_self. intros [g n] Hg. apply report_result. apply (is_topk_in _ _ _ _ _ O) in Hg. apply filter_In in Hg as [Hg _].
    apply group_rows_in in Hg as [Hg _]. apply in_map_iff in Hg as (e & <- & _). apply map_length.
  - unfold aggregate_store. rewrite C, T. replace (match q_group q with [] => Err EOther | _ => agg_group Nm gsrt (st_db I s) q end) with (agg_group Nm gsrt (st_db I s) q) by (clear - G; destruct (q_group q); [congruence|reflexivity]). unfold agg_group. rewrite E. cbn [bind]. rewrite K. reflexivity.
Qed.
Definition result (keys : list (string * agg_key)) (n : nat) : agg_result := {| a_keys := keys; a_value := VReal (f64_of_Z (Z.of_nat n)); a_count := n |}.
Example group_by_exact_ex :
  agg (filled shop) (request TGroupBy "" ["kind"] [] "c" [] (ColKey 0) 0) = Ok [result [("kind", KText "y")] 1; result [("kind", KText "x")] 2; result [("kind", KNull)] 1] /\
  agg (filled shop) (request TGroupBy "" ["kind"] [] "" [] ColCount 1) = Ok [result [("kind", KText "x")] 3] /\
  agg (filled shop) (request TGroupBy "" ["kind"; "price"] [] "" [(ColKey 0, GStr "y"); (ColCount, GInt 1)] ColCount 0) =
    Ok [result [("kind", KText "y"); ("price", KNumber (f64_of_Z 1))] 1] /\
  all_have_metadata list_index (filled shop) /\ Forall plain_field ["kind"; "price"] /\ forall lt, sort_ok lt (@isort (list (option string) * nat) lt).
Proof.
  split; [vm_compute; reflexivity|]. split; [vm_compute; reflexivity|]. split; [vm_compute; reflexivity|]. split; [apply shop_metadata|].
  split; [|intros lt; apply isort_ok]. constructor; [apply plain_kind|]. constructor; [apply plain_price|constructor].
Qed.

(** A request without the field or the group fields it needs, of unknown type, or on a
    closed store, is refused. *)
Theorem aggregate_refused :
  forall I Nm A scan gsrt s q,
  (st_closed I s = true -> aggregate_store I Nm A scan gsrt s q = Err EClosed) /\
  (st_closed I s = false ->
   q_type q = TUnknownType \/ (q_type q = TGroupBy /\ q_group q = []) \/ ((q_type q = TSum \/ q_type q = TAvg \/ q_type q = TMin \/ q_type q = TMax) /\ q_field q = "") ->
   aggregate_store I Nm A scan gsrt s q = Err EOther).
Proof.
  intros. unfold aggregate_store. split; [intros ->; reflexivity|]. intros ->. intros [->|[[-> ->]|[[->|[->|[->| ->]]] ->]]]; reflexivity.
Qed.

(** Findings. One embedding without metadata makes every filtered count fail. *)
Theorem aggregate_without_metadata_refuted :
  exists s e, reachable list_index fk_env s /\ st_closed list_index s = false /\ get_by_id list_index s "b" = Ok e /\ field_of "kind" e = Some "x" /\
  agg s (request TCount "" [] (text_filters [("kind", "x")]) "" [] ColCount 0) = Err EOther /\
  agg s (request TGroupBy "" ["kind"] [] "" [] ColCount 0) = Err EOther.
Proof.
  exists (filled [OUpsert (emb_nometa "a" v10); OUpsert (emb_meta "b" v01 [("kind", "x")])]). eexists.
  split; [apply filled_reachable|]. split; [vm_compute; reflexivity|]. split; [vm_compute; reflexivity|]. split; [reflexivity|]. split; vm_compute; reflexivity.
Qed.
(** A number as filter value selects nothing, whatever is stored: metadata is kept as
    text, and a text never equals a number. *)
Theorem aggregate_number_filter_refuted :
  forall I Nm A scan gsrt envs s coll k z, reachable I envs s -> st_closed I s = false -> plain_field k -> all_have_metadata I s ->
  aggregate_store I Nm A scan gsrt s (request TCount "" [] [(k, GInt z)] coll [] ColCount 0) = Ok [{| a_keys := []; a_value := VCount 0; a_count := 0 |}].
Proof.
  intros I Nm A scan gsrt envs s coll k z R C K M. unfold aggregate_store. rewrite C. cbn [q_type request]. unfold agg_rows.
  assert (D : forall r, In r (t_rows (st_db I s)) -> agg_where None (st_db I s) (request TCount "" [] [(k, GInt z)] coll [] ColCount 0) r = TFalse \/
     agg_where None (st_db I s) (request TCount "" [] [(k, GInt z)] coll [] ColCount 0) r = TUnknown).
  { intros r Hr. destruct (row_of_get I s envs r R C Hr) as (e & G & Em & _). pose proof (M _ _ G) as Hm. rewrite Em in Hm.
    unfold agg_where. cbn [q_coll q_filters request tv_and fold_right fst snd agg_param bind_param].
    destruct (r_meta r) as [m|]; [|congruence]. rewrite extract_plain by auto.
    destruct (assoc k m); cbn [on_text text_eq tv_and]; destruct (String.eqb_spec coll "") as [|Hc]; cbn [tv_and]; auto;
      unfold in_named_coll; destruct (find_coll _ _); cbn [tv_and]; auto; unfold of_bool; destruct (Z.eqb _ _); cbn [tv_and]; auto. }
  rewrite none_exists; [|intros r Hr; destruct (D r Hr) as [->| ->]; reflexivity].
  rewrite filter_none; [reflexivity|]. intros r Hr. destruct (D r Hr) as [->| ->]; reflexivity.
Qed.
Example aggregate_number_filter_refuted_ex :
  agg (filled shop) (request TCount "" [] [("price", GInt 3)] "" [] ColCount 0) = Ok [{| a_keys := []; a_value := VCount 0; a_count := 0 |}] /\
  match get_by_id list_index (filled shop) "a" with Ok e => field_of "price" e | _ => None end = Some "3".
Proof. split; vm_compute; reflexivity. Qed.
(** The field of a grouping request is ignored: a sum per group cannot be asked for. *)
Theorem group_by_field_ignored :
  forall I Nm A scan gsrt s field ks fs coll hs o l,
  aggregate_store I Nm A scan gsrt s (request TGroupBy field ks fs coll hs o l) = aggregate_store I Nm A scan gsrt s (request TGroupBy "" ks fs coll hs o l).
Proof. reflexivity. Qed.
(** Different groups whose keys read as the same number are shown alike. *)
Theorem group_keys_distinct_refuted :
  exists s r1 r2, reachable list_index fk_env s /\
  agg s (request TGroupBy "" ["v"] [] "" [] ColCount 0) = Ok [r1; r2] /\ a_keys r1 = a_keys r2.
Proof.
  exists (filled [OUpsert (emb_meta "a" v10 [("v", "1")]); OUpsert (emb_meta "b" v01 [("v", "01")]); OUpsert (emb_meta "c" v01 [("v", "01")])]). eexists. eexists.
  split; [apply filled_reachable|]. split; vm_compute; reflexivity.
Qed.

Print Assumptions count_exact.
Print Assumptions field_aggregate_exact.
Print Assumptions group_by_exact.
Print Assumptions aggregate_refused.
Print Assumptions aggregate_without_metadata_refuted.
Print Assumptions aggregate_number_filter_refuted.
Print Assumptions group_by_field_ignored.
Print Assumptions group_keys_distinct_refuted.
