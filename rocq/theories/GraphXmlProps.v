(** Theorems about GraphML and GEXF export and import of a graph, and format detection. *)
From Coq Require Import String Ascii List NArith ZArith Bool Lia Permutation.
From Coq Require Import Floats.SpecFloat.
From Verif Require Import Base Floats64 StoreModel StoreSpec IoModel GraphModel GraphSpec GraphProofs GraphBfsProofs GraphTravProofs GraphNeighborProofs GraphProps GraphBatchProps GraphExportModel GraphExportSpec GraphExportProps GraphXmlModel GraphXmlSpec.
Import ListNotations.
Open Scope string_scope.
Open Scope list_scope.
From Coq Require Import ZifyBool ZifyNat ZifyN.

(** * Importing acceptable entries into an empty graph *)
Lemma import_fresh ev1 ev2 ns es : (forall n, ev_ok ev1 n = true) -> (forall n, ev_ok ev2 n = true) -> ev_fk ev2 = true ->
  NoDup (map n_id ns) -> NoDup (map ge_id es) -> (forall n, In n ns -> node_valid n = true) ->
  (forall e, In e es -> edge_valid e = true /\ In (ge_from e) (map n_id ns) /\ In (ge_to e) (map n_id ns)) ->
  exists g', import_json ev1 ev2 new_graph {| gf_nodes := ns; gf_edges := es |} = (g', Ok tt) /\
    (forall n, In n (g_nodes g') <-> In n ns) /\ (forall e', In e' (g_edges g') <-> exists e, In e es /\ e' = default_weight e).
Proof.
  intros K1 K2 F Nn Ne Vn Ve. unfold import_json. cbn [gf_nodes gf_edges]. pose proof (nodes_batch_exact ev1 new_graph (map Some ns)) as B.
  destruct (upsert_nodes_batch ev1 new_graph (map Some ns)) as [d1 [r1|x1|]]; [|destruct B as [_ [n Hn]]; rewrite K1 in Hn; discriminate|destruct B].
  destruct B as [l' [_ [L [_ [_ [E1 I1]]]]]]. rewrite (L K1) in I1.
  assert (In1 : forall n, In n (g_nodes d1) <-> In n ns).
  { intros n. rewrite I1. rewrite (last_all node_acceptable n_id ns n); auto.
    - split; [intros [H|[[] _]]; auto|auto].
    - intros m Hm. apply node_valid_iff, Vn; auto. }
  pose proof (edges_batch_exact ev2 d1 (map Some es) F) as B.
  destruct (upsert_edges_batch ev2 d1 (map Some es)) as [d2 [r2|x2|]]; [|destruct B as [_ [n Hn]]; rewrite K2 in Hn; discriminate|destruct B].
  destruct B as [l2 [_ [L2 [_ [_ [E2 I2]]]]]]. rewrite (L2 K2) in I2. exists d2. split; auto. split; [intros n; rewrite E2; auto|].
  assert (Hn : forall id, In id (map n_id ns) -> has_node d1 id).
  { intros id H. apply in_map_iff in H as (n & <- & H). exists n. split; auto. apply In1. auto. }
  intros e. rewrite I2. split.
  - intros [[y [Hy Sy]]|[He _]]; [|rewrite E1 in He; destruct He]. exists y. split.
    + destruct Hy as [l1 [l3 [E _]]]. assert (I : In (Some y) (map Some es)) by (rewrite E; apply in_app_iff; right; left; auto). apply in_map_iff in I as [x [Ex Hx]]. congruence.
    + apply (stored_edge_unique y); auto using stored_edge_default.
  - intros (y & Hy & ->). left. exists y. split; [|apply stored_edge_default]. apply last_all; auto.
    intros a Ha. destruct (Ve a Ha) as (V & V4 & V5). exists a. split; auto. unfold edge_valid in V. apply andb_prop in V as [V1 V2]. apply negb_true_iff in V1, V2. apply orb_false_iff in V2 as [V2 V3].
    apply String.eqb_neq in V1, V2, V3. auto 8.
Qed.

(** * One entry *)
Lemma six_decimals_fixed6 w : six_decimals w (fixed6 w).
Proof.
  destruct w as [s|s| |s m e]; cbn [six_decimals fixed6]; auto.
  assert (exists num den, 0 < den /\ num * 2 ^ Z.max 0 (- e) = Z.pos m * 2 ^ Z.max 0 e * 1000000 * den /\ nearest_integer num den (six_digits m e) /\ 0 <= six_digits m e)%Z as (num & den & H1 & H2 & H3 & H4).
  { unfold six_digits. destruct (0 <=? e)%Z eqn:E.
    - exists (Z.pos m * 1000000 * 2 ^ e)%Z, 1%Z. split; [lia|]. replace (Z.max 0 (- e))%Z with 0%Z by lia. replace (Z.max 0 e)%Z with e by lia. split; [change (2 ^ 0)%Z with 1%Z; ring|].
      assert (0 < 2 ^ e)%Z by (apply Z.pow_pos_nonneg; lia). split; [|nia]. unfold nearest_integer. rewrite !Z.mul_1_r, Z.sub_diag. cbn. split; [lia|discriminate].
    - exists (Z.pos m * 1000000)%Z, (2 ^ (- e))%Z. assert (D : (0 < 2 ^ (- e))%Z) by (apply Z.pow_pos_nonneg; lia). split; auto.
      replace (Z.max 0 (- e))%Z with (- e)%Z by lia. replace (Z.max 0 e)%Z with 0%Z by lia. split; [change (2 ^ 0)%Z with 1%Z; ring|]. cbv zeta.
      set (n := (Z.pos m * 1000000)%Z) in *. set (d := (2 ^ (- e))%Z) in *. pose proof (Z.div_mod n d ltac:(lia)) as DM. pose proof (Z.mod_pos_bound n d D) as MB.
      assert (Hq : (0 <= n / d)%Z) by (apply Z.div_pos; [unfold n; lia|auto]). set (q := (n / d)%Z) in *. set (r := (n mod d)%Z) in *.
      unfold nearest_integer. assert (X0 : (n - q * d = r)%Z) by lia. assert (X1 : (n - (q + 1) * d = r - d)%Z) by lia.
      destruct (2 * r <? d)%Z eqn:A1; [|destruct (d <? 2 * r)%Z eqn:A2; [|destruct (Z.even q) eqn:A3]]; rewrite ?X0, ?X1; (split; [split|]); try lia; auto.
      intros _. replace (q + 1)%Z with (Z.succ q) by lia. rewrite Z.even_succ, <- Z.negb_even, A3. reflexivity. }
  exists num, den, (six_digits m e). split; auto. split; auto. split; auto. destruct (six_digits m e) as [|p|p]; [left; auto|right; eauto|lia].
Qed.
Section Back.
Variables xtext jtext : string -> string.
Variables (ot : xvalue -> string) (ov : xvalue -> option (list N)) (op : xvalue -> option smap) (on : xvalue -> option float).
Lemma kept_map m l : kept_props jtext m -> m = Some l -> map (fun kv => (jtext (fst kv), jtext (snd kv))) l = l.
Proof. intros H E. rewrite <- (map_id l) at 2. apply map_ext_in. intros [k v] Hx. cbn [fst snd id]. destruct (H l k v E Hx) as [-> ->]. reflexivity. Qed.
Lemma finite_dec v : {finite_vector v} + {~ finite_vector v}.
Proof. destruct (forallb finite_bits v) eqn:E; [left|right]; rewrite <- finite_bits_iff; congruence. Qed.
Lemma node_back_fields keys k0 k1 k2 k3 n label : key_name keys k0 = "content" -> key_name keys k1 = "type" -> key_name keys k2 = "vector" -> key_name keys k3 = "properties" ->
  xtext (n_id n) = n_id n -> xtext (n_content n) = n_content n -> xtext (n_type n) = n_type n -> kept_props jtext (n_props n) -> n_vec n <> [] ->
  node_back n (ensure_vec (fold_left (node_field ot ov op keys) (node_data xtext jtext k0 k1 k2 k3 n) {| n_id := xtext (n_id n); n_vec := []; n_content := label; n_type := ""; n_props := Some [] |})).
Proof.
  intros E0 E1 E2 E3 T1 T2 T3 KP V. unfold node_data. destruct (n_vec n) as [|b v] eqn:Ev; [congruence|]. cbn [app fold_left].
  assert (F0 : forall x y, node_field ot ov op keys x (k0, y) = {| n_id := n_id x; n_vec := n_vec x; n_content := read_text ot y; n_type := n_type x; n_props := n_props x |}) by (intros; unfold node_field; cbn [fst snd]; rewrite E0; reflexivity).
  assert (F1 : forall x y, node_field ot ov op keys x (k1, y) = {| n_id := n_id x; n_vec := n_vec x; n_content := n_content x; n_type := read_text ot y; n_props := n_props x |}) by (intros; unfold node_field; cbn [fst snd]; rewrite E1; reflexivity).
  assert (F2 : forall x y, node_field ot ov op keys x (k2, y) = {| n_id := n_id x; n_vec := match read_vec ov y with Some v => v | None => default_vec end; n_content := n_content x; n_type := n_type x; n_props := n_props x |}) by (intros; unfold node_field; cbn [fst snd]; rewrite E2; reflexivity).
  assert (F3 : forall x y, node_field ot ov op keys x (k3, y) = {| n_id := n_id x; n_vec := n_vec x; n_content := n_content x; n_type := n_type x; n_props := match read_props op y with Some m => Some m | None => n_props x end |}) by (intros; unfold node_field; cbn [fst snd]; rewrite E3; reflexivity).
  rewrite F0, F1, F2. cbn [n_id n_vec n_content n_type n_props].
  assert (RV : read_vec ov (vec_value (b :: v)) = if finite_dec (b :: v) then Some (b :: v) else None).
  { unfold vec_value. destruct (finite_dec (b :: v)) as [f|f]; rewrite <- finite_bits_iff in f; [rewrite f; reflexivity|]. destruct (forallb finite_bits (b :: v)); [congruence|reflexivity]. }
  rewrite RV. cbn [read_text].
  destruct (n_props n) as [m|] eqn:Ep; cbn [fold_left].
  - rewrite F3. cbn [n_id n_vec n_content n_type n_props]. unfold props_value. cbn [read_props]. rewrite (kept_map (Some m) m KP eq_refl), T1, T2, T3.
    unfold node_back. rewrite Ep, Ev. destruct (finite_dec (b :: v)); cbn; do 4 (split; [reflexivity|]); split; intros; (contradiction || reflexivity).
  - rewrite T1, T2, T3. unfold node_back. rewrite Ep, Ev. destruct (finite_dec (b :: v)); cbn; do 4 (split; [reflexivity|]); split; intros; (contradiction || reflexivity).
Qed.
Lemma edge_back_fields e : xtext (ge_id e) = ge_id e -> xtext (ge_from e) = ge_from e -> xtext (ge_to e) = ge_to e -> xtext (ge_type e) = ge_type e -> kept_props jtext (ge_props e) ->
  edge_back_ml e (default_weight (ml_import_edge ot op on (md_keys (export_graphml xtext jtext (fun l => l) (fun _ l => l) new_graph)) (ml_export_edge xtext jtext e))).
Proof.
  intros T1 T2 T3 T4 KP. pose proof (six_decimals_fixed6 (ge_weight e)) as S6. unfold ml_import_edge, ml_export_edge. cbn [me_id me_from me_to me_data md_keys export_graphml app]. rewrite T1, T2, T3, T4.
  destruct (ge_props e) as [m|] eqn:Ep.
  - unfold props_value. rewrite (kept_map (Some m) m KP eq_refl). cbn. unfold default_weight. cbn. unfold edge_back_ml. rewrite Ep.
    destruct (feq (fixed6 (ge_weight e)) f_zero) eqn:Z; cbn; repeat (split; [reflexivity|]); exists (fixed6 (ge_weight e)); rewrite Z; auto.
  - cbn. unfold default_weight. cbn. unfold edge_back_ml. rewrite Ep.
    destruct (feq (fixed6 (ge_weight e)) f_zero) eqn:Z; cbn; repeat (split; [reflexivity|]); exists (fixed6 (ge_weight e)); rewrite Z; auto.
Qed.
End Back.
Lemma node_back_fun n a b : node_back n a -> node_back n b -> a = b.
Proof.
  intros (A1 & A2 & A3 & A4 & A5 & A6) (B1 & B2 & B3 & B4 & B5 & B6). assert (n_vec a = n_vec b).
  { destruct (finite_dec (n_vec n)) as [f|f]; [rewrite A5, B5|rewrite A6, B6]; auto. }
  destruct a, b. cbn in *. congruence.
Qed.
Lemma nearest_unique num den k k' : (0 < den)%Z -> nearest_integer num den k -> nearest_integer num den k' -> k = k'.
Proof.
  intros D [A1 A2] [B1 B2]. destruct (Z.eq_dec k k') as [|Ne]; auto. exfalso.
  assert (k = k' + 1 \/ k' = k + 1)%Z by nia. destruct H as [->| ->].
  - assert (Z.abs (2 * (num - (k' + 1) * den)) = den /\ Z.abs (2 * (num - k' * den)) = den)%Z as [X Y] by nia. specialize (A2 X). specialize (B2 Y).
    rewrite Z.add_1_r, Z.even_succ, <- Z.negb_even, B2 in A2. discriminate.
  - assert (Z.abs (2 * (num - (k + 1) * den)) = den /\ Z.abs (2 * (num - k * den)) = den)%Z as [X Y] by nia. specialize (A2 Y). specialize (B2 X).
    rewrite Z.add_1_r, Z.even_succ, <- Z.negb_even, A2 in B2. discriminate.
Qed.
Lemma edge_ml_fun e a b : edge_back_ml e a -> edge_back_ml e b -> a = b.
Proof.
  intros (A1 & A2 & A3 & A4 & A5 & A6 & x & A7 & A8) (B1 & B2 & B3 & B4 & B5 & B6 & y & B7 & B8).
  assert (x = y).
  { destruct (ge_weight e) as [s|s| |s m ex]; cbn in *; try congruence.
    destruct A7 as (n1 & d1 & k1 & P1 & Q1 & R1 & S1), B7 as (n2 & d2 & k2 & P2 & Q2 & R2 & S2).
    assert (k1 = k2).
    { assert (C : (0 < 2 ^ Z.max 0 (- ex))%Z) by (apply Z.pow_pos_nonneg; lia).
      assert (X : (n1 * d2 = n2 * d1)%Z).
      { apply (Z.mul_reg_r _ _ (2 ^ Z.max 0 (- ex))%Z); [lia|].
        transitivity ((n1 * 2 ^ Z.max 0 (- ex)) * d2)%Z; [ring|]. rewrite Q1. transitivity ((n2 * 2 ^ Z.max 0 (- ex)) * d1)%Z; [rewrite Q2; ring|ring]. }
      apply (nearest_unique (n1 * d2) (d1 * d2)); [nia| |].
      - destruct R1 as [R1 R1']. split.
        + replace (2 * (n1 * d2 - k1 * (d1 * d2)))%Z with (2 * (n1 - k1 * d1) * d2)%Z by ring. rewrite Z.abs_mul, (Z.abs_eq d2) by lia. nia.
        + replace (2 * (n1 * d2 - k1 * (d1 * d2)))%Z with (2 * (n1 - k1 * d1) * d2)%Z by ring. rewrite Z.abs_mul, (Z.abs_eq d2) by lia. intros H. apply R1'. apply (Z.mul_reg_r _ _ d2); lia.
      - rewrite X. destruct R2 as [R2 R2']. split.
        + replace (2 * (n2 * d1 - k2 * (d1 * d2)))%Z with (2 * (n2 - k2 * d2) * d1)%Z by ring. rewrite Z.abs_mul, (Z.abs_eq d1) by lia. nia.
        + replace (2 * (n2 * d1 - k2 * (d1 * d2)))%Z with (2 * (n2 - k2 * d2) * d1)%Z by ring. rewrite Z.abs_mul, (Z.abs_eq d1) by lia. intros H. apply R2'. apply (Z.mul_reg_r _ _ d1); lia. }
    destruct S1 as [[S1 ->]|(p & S1 & ->)], S2 as [[S2 ->]|(p' & S2 & ->)]; [reflexivity|exfalso; rewrite S1, S2 in H; discriminate H|exfalso; rewrite S1, S2 in H; discriminate H|]. rewrite S1, S2 in H. injection H as <-. reflexivity. }
  subst y. destruct a, b. cbn in *. congruence.
Qed.
Lemma edge_gexf_fun e a b : edge_back_gexf e a -> edge_back_gexf e b -> a = b.
Proof. intros (A1 & A2 & A3 & A4 & A5 & A6 & A7) (B1 & B2 & B3 & B4 & B5 & B6 & B7). destruct a, b. cbn in *. congruence. Qed.
Lemma node_valid_vec n : node_valid n = true -> n_vec n <> [].
Proof. unfold node_valid. intros H E. rewrite E in H. destruct (String.eqb (n_id n) ""); discriminate. Qed.
Lemma node_back_valid n n' : node_back n n' -> node_valid n = true -> node_valid n' = true.
Proof.
  intros (A1 & _ & _ & _ & A5 & A6) V. unfold node_valid in *. rewrite A1. destruct (finite_dec (n_vec n)) as [f|f]; [rewrite (A5 f); auto|rewrite (A6 f)].
  apply andb_prop in V as [V _]. rewrite V. reflexivity.
Qed.

(** * Round trips *)
Lemma collected ord ordn g : greachable fk_env g -> (forall l, Permutation (ordn l) l) -> any_order ord -> weights_numbers g ->
  NoDup (map ge_id (collect_edges ord g (ordn (g_nodes g)))) /\ forall e, In e (collect_edges ord g (ordn (g_nodes g))) <-> In e (g_edges g).
Proof.
  intros R On O W. destruct (reach_fine g R) as [[Un Ue] D].
  destruct (collect_spec ord g O Ue (ordn (g_nodes g)) [] (NoDup_nil _) ltac:(intros ? [])) as [N C]. cbv zeta in N, C. split; auto. intros e. unfold collect_edges. rewrite C. split.
  - intros [[]|[H _]]; auto.
  - intros H. right. split; auto. split.
    + destruct (D e H) as [[n [Hn En]] _]. rewrite <- En. apply in_map. apply (Permutation_in _ (Permutation_sym (On _))). auto.
    + intros e' He' _. apply W. auto.
Qed.
Lemma round_trip ev1 ev2 g ordn es (fn : gnode -> gnode) (fe : gedge -> gedge) (Bn : gnode -> gnode -> Prop) (Be : gedge -> gedge -> Prop) :
  greachable fk_env g -> (forall l, Permutation (ordn l) l) -> (forall n, ev_ok ev1 n = true) -> (forall n, ev_ok ev2 n = true) -> ev_fk ev2 = true ->
  NoDup (map ge_id es) -> (forall e, In e es <-> In e (g_edges g)) ->
  (forall n, In n (g_nodes g) -> Bn n (fn n) /\ n_id (fn n) = n_id n /\ node_valid (fn n) = true) ->
  (forall e, In e (g_edges g) -> Be e (default_weight (fe e)) /\ ge_id (fe e) = ge_id e /\ ge_from (fe e) = ge_from e /\ ge_to (fe e) = ge_to e) ->
  (forall n a b, Bn n a -> Bn n b -> a = b) -> (forall e a b, Be e a -> Be e b -> a = b) ->
  exists g', import_json ev1 ev2 new_graph {| gf_nodes := map fn (ordn (g_nodes g)); gf_edges := map fe es |} = (g', Ok tt) /\
    (forall n', In n' (g_nodes g') <-> exists n, In n (g_nodes g) /\ Bn n n') /\ (forall e', In e' (g_edges g') <-> exists e, In e (g_edges g) /\ Be e e').
Proof.
  intros R On K1 K2 F Ne Ie Hn He Un Ue. destruct (reach_fine g R) as [[UN UE] D]. destruct (reach_acceptable fk_env g R) as [An Ae].
  assert (Io : forall n, In n (ordn (g_nodes g)) <-> In n (g_nodes g)) by (intros n; split; apply Permutation_in; [|apply Permutation_sym]; apply On).
  assert (Mi : map n_id (map fn (ordn (g_nodes g))) = map n_id (ordn (g_nodes g))).
  { rewrite map_map. apply map_ext_in. intros n H. apply Io in H. apply Hn. auto. }
  assert (Me : map ge_id (map fe es) = map ge_id es).
  { rewrite map_map. apply map_ext_in. intros e H. apply Ie in H. apply He. auto. }
  assert (Hs : forall id, has_node g id -> In id (map n_id (map fn (ordn (g_nodes g))))).
  { intros id [n [H <-]]. rewrite Mi. apply in_map, Io. auto. }
  destruct (import_fresh ev1 ev2 (map fn (ordn (g_nodes g))) (map fe es) K1 K2 F) as (g' & E & In1 & In2).
  - rewrite Mi. apply (Permutation_NoDup (Permutation_map n_id (Permutation_sym (On _)))). auto.
  - rewrite Me. auto.
  - intros n H. apply in_map_iff in H as (m & <- & H). apply Io in H. apply Hn. auto.
  - intros e H. apply in_map_iff in H as (m & <- & H). apply Ie in H. destruct (He m H) as (_ & Q1 & Q2 & Q3). destruct (Ae m H) as [V _]. destruct (D m H) as [D1 D2].
    unfold edge_valid in *. rewrite Q1, Q2, Q3. auto.
  - exists g'. split; auto. split.
    + intros n'. rewrite In1, in_map_iff. split.
      * intros (n & <- & H). apply Io in H. exists n. split; auto. apply Hn. auto.
      * intros (n & H & B). exists n. split; [|apply Io; auto]. apply (Un n); auto. apply Hn. auto.
    + intros e'. rewrite In2. split.
      * intros (x & Hx & ->). apply in_map_iff in Hx as (e & <- & H). apply Ie in H. exists e. split; auto. apply He. auto.
      * intros (e & H & B). exists (fe e). split; [apply in_map, Ie; auto|]. apply (Ue e); auto. apply He. auto.
Qed.

(** *** C196 *)
(** Importing the GraphML export of a graph into an empty one gives, for each node and edge,
    exactly one node or edge that has come back: ids, contents, types and properties as they
    were, vectors of finite numbers as they were, weights with six decimals. *)
Theorem graphml_round_trip : forall xtext jtext ot ov op on ordn ord g, greachable fk_env g -> (forall l, Permutation (ordn l) l) -> any_order ord ->
  kept_text xtext jtext g -> weights_numbers g ->
  forall ev1 ev2, (forall n, ev_ok ev1 n = true) -> (forall n, ev_ok ev2 n = true) -> ev_fk ev2 = true ->
  exists g', import_graphml ot ov op on ev1 ev2 new_graph (export_graphml xtext jtext ordn ord g) = (g', Ok tt) /\
    (forall n', In n' (g_nodes g') <-> exists n, In n (g_nodes g) /\ node_back n n') /\
    (forall e', In e' (g_edges g') <-> exists e, In e (g_edges g) /\ edge_back_ml e e').
Proof.
  intros xtext jtext ot ov op on ordn ord g R On O [Tn Te] W ev1 ev2 K1 K2 F. destruct (collected ord ordn g R On O W) as [Nc Ic]. destruct (reach_acceptable fk_env g R) as [An Ae].
  unfold import_graphml. set (keys := md_keys (export_graphml xtext jtext ordn ord g)). cbn [md_nodes md_edges export_graphml]. rewrite !map_map.
  apply round_trip; auto; [| |apply node_back_fun|apply edge_ml_fun].
  - intros n H. destruct (Tn n H) as (T1 & T2 & T3 & T4). pose proof (An n H) as V.
    assert (B : node_back n (ml_import_node ot ov op keys (ml_export_node xtext jtext n))) by (apply node_back_fields; auto using node_valid_vec).
    split; auto. split; [apply B|]. apply (node_back_valid n); auto.
  - intros e H. destruct (Te e H) as (T1 & T2 & T3 & T4 & T5). pose proof (edge_back_fields xtext jtext ot op on e T1 T2 T3 T4 T5) as B. split; [exact B|].
    destruct B as (B1 & B2 & B3 & _).
    assert (Dw : forall x, ge_id (default_weight x) = ge_id x /\ ge_from (default_weight x) = ge_from x /\ ge_to (default_weight x) = ge_to x) by (intros x; unfold default_weight; destruct (feq _ _); auto).
    destruct (Dw (ml_import_edge ot op on keys (ml_export_edge xtext jtext e))) as (D1 & D2 & D3). rewrite <- D1, <- D2, <- D3. auto.
Qed.
(** *** C197 *)
(** GEXF: the same for nodes; edges come back with their weights but without properties. *)
Theorem gexf_round_trip : forall xtext jtext ot ov op ordn ord g, greachable fk_env g -> (forall l, Permutation (ordn l) l) -> any_order ord ->
  kept_text xtext jtext g -> weights_numbers g ->
  forall ev1 ev2, (forall n, ev_ok ev1 n = true) -> (forall n, ev_ok ev2 n = true) -> ev_fk ev2 = true ->
  exists g', import_gexf ot ov op ev1 ev2 new_graph (export_gexf xtext jtext ordn ord g) = (g', Ok tt) /\
    (forall n', In n' (g_nodes g') <-> exists n, In n (g_nodes g) /\ node_back n n') /\
    (forall e', In e' (g_edges g') <-> exists e, In e (g_edges g) /\ edge_back_gexf e e').
Proof.
  intros xtext jtext ot ov op ordn ord g R On O [Tn Te] W ev1 ev2 K1 K2 F. destruct (collected ord ordn g R On O W) as [Nc Ic]. destruct (reach_acceptable fk_env g R) as [An Ae].
  unfold import_gexf. set (keys := gd_attrs (export_gexf xtext jtext ordn ord g)). cbn [gd_nodes gd_edges export_gexf]. rewrite !map_map.
  apply round_trip; auto; [| |apply node_back_fun|apply edge_gexf_fun].
  - intros n H. destruct (Tn n H) as (T1 & T2 & T3 & T4). pose proof (An n H) as V.
    assert (B : node_back n (gx_import_node ot ov op keys (gx_export_node xtext jtext n))) by (apply node_back_fields; auto using node_valid_vec).
    split; auto. split; [apply B|]. apply (node_back_valid n); auto.
  - intros e H. destruct (Te e H) as (T1 & T2 & T3 & T4 & T5). destruct (Ae e H) as [_ Wz]. unfold gx_import_edge, gx_export_edge. cbn. rewrite Wz, T1, T2, T3, T4.
    unfold default_weight. cbn. rewrite Wz. unfold edge_back_gexf. cbn. auto 10.
Qed.
(** A graph that meets the conditions of both. *)
Example graph_xml_ex : greachable fk_env g4 /\ kept_text same_text same_text g4 /\ weights_numbers g4 /\
  map ge_id (g_edges (fst (import_graphml (fun _ => "") (fun _ => None) (fun _ => None) (fun _ => None) all_fine all_fine new_graph (export_graphml same_text same_text same_nodes as_stored g4)))) = ["ab"; "ac"; "bc"; "cd"] /\
  map n_id (g_nodes (fst (import_gexf (fun _ => "") (fun _ => None) (fun _ => None) all_fine all_fine new_graph (export_gexf same_text same_text same_nodes as_stored g4)))) = ["a"; "b"; "c"; "d"; "z"].
Proof.
  split; [apply g4_reachable|]. split.
  - split; intros x H; [do 3 (split; [reflexivity|])|do 4 (split; [reflexivity|])]; intros l k v E I; unfold same_text; auto.
  - split; [apply g4_weights|]. split; vm_compute; reflexivity.
Qed.
Print Assumptions graphml_round_trip.
Print Assumptions gexf_round_trip.

(** *** Findings *)
(** A graph does not come back from GraphML as it was: an edge of weight 10^-7 comes back with
    weight 1, and a node with an infinite number in its vector with three zeros; no error is
    reported. *)
Definition tiny : float := f64_div (f64_of_Z 1) (f64_of_Z 10000000).
Definition tiny_graph : gdb := grun all_fine [GUpsertNode (Some (gn "a" "p")); GUpsertNode (Some {| n_id := "b"; n_vec := [2139095040%N]; n_content := "c"; n_type := "p"; n_props := None |});
  GUpsertEdge (Some {| ge_id := "ab"; ge_from := "a"; ge_to := "b"; ge_type := "t"; ge_weight := tiny; ge_props := Some [("k", "v")]; ge_vec := [1065353216%N] |})].
Theorem graphml_restores_refuted : exists g g', greachable fk_env g /\ kept_text same_text same_text g /\ weights_numbers g /\
  import_graphml (fun _ => "") (fun _ => None) (fun _ => None) (fun _ => None) all_fine all_fine new_graph (export_graphml same_text same_text same_nodes as_stored g) = (g', Ok tt) /\
  (exists e e', In e (g_edges g) /\ In e' (g_edges g') /\ ge_id e = ge_id e' /\ flt (ge_weight e) (f64_of_Z 1) = true /\ ge_weight e' = f64_of_Z 1 /\ ge_vec e <> [] /\ ge_vec e' = []) /\
  (exists n n', In n (g_nodes g) /\ In n' (g_nodes g') /\ n_id n = n_id n' /\ n_vec n = [2139095040%N] /\ n_vec n' = [0; 0; 0]%N).
Proof.
  exists tiny_graph. eexists. split; [apply grun_reachable; reflexivity|]. split; [split|split].
  - intros n H. do 3 (split; [reflexivity|]). intros l k v E I. unfold same_text. auto.
  - intros e H. do 4 (split; [reflexivity|]). intros l k v E I. unfold same_text. auto.
  - intros e. vm_compute. intros [<-|[]]. discriminate.
  - split; [vm_compute; reflexivity|]. split.
    + do 2 eexists. split; [left; vm_compute; reflexivity|]. split; [left; reflexivity|]. repeat split; try (vm_compute; reflexivity). discriminate.
    + do 2 eexists. split; [right; left; vm_compute; reflexivity|]. split; [right; left; reflexivity|]. repeat split; reflexivity.
Qed.
Print Assumptions graphml_restores_refuted.
(** Nor from GEXF: the properties of the edge are gone. *)
Theorem gexf_restores_refuted : exists g g', greachable fk_env g /\ kept_text same_text same_text g /\ weights_numbers g /\
  import_gexf (fun _ => "") (fun _ => None) (fun _ => None) all_fine all_fine new_graph (export_gexf same_text same_text same_nodes as_stored g) = (g', Ok tt) /\
  exists e e', In e (g_edges g) /\ In e' (g_edges g') /\ ge_id e = ge_id e' /\ ge_props e = Some [("k", "v")] /\ ge_props e' = Some [].
Proof.
  exists tiny_graph. eexists. split; [apply grun_reachable; reflexivity|]. split; [split|split].
  - intros n H. do 3 (split; [reflexivity|]). intros l k v E I. unfold same_text. auto.
  - intros e H. do 4 (split; [reflexivity|]). intros l k v E I. unfold same_text. auto.
  - intros e. vm_compute. intros [<-|[]]. discriminate.
  - split; [vm_compute; reflexivity|]. do 2 eexists. split; [left; vm_compute; reflexivity|]. split; [left; reflexivity|]. repeat split; reflexivity.
Qed.
Print Assumptions gexf_restores_refuted.

(** *** Detecting the format *)
Definition nl : string := String "010" "".
Definition qt : string := String """" "".
Definition attr (n v : string) : string := (" " ++ n ++ "=" ++ qt ++ v ++ qt)%string.
Definition xml_header : string := ("<?xml" ++ attr "version" "1.0" ++ attr "encoding" "UTF-8" ++ "?>" ++ nl)%string.
Definition ml_key (id for_ name ty : string) : string := ("  <key" ++ attr "id" id ++ attr "for" for_ ++ attr "attr.name" name ++ attr "attr.type" ty ++ "></key>" ++ nl)%string.
(** How the text of a GraphML export begins (graph_export.go:82-97, 150-157). *)
Definition graphml_head : string :=
  (xml_header ++ "<graphml" ++ attr "xmlns" "http://graphml.graphdrawing.org/xmlns" ++ ">" ++ nl ++
   ml_key "d0" "node" "content" "string" ++ ml_key "d1" "node" "type" "string" ++ ml_key "d2" "node" "vector" "string" ++ ml_key "d3" "node" "properties" "string" ++
   ml_key "d4" "edge" "type" "string" ++ ml_key "d5" "edge" "weight" "double" ++ ml_key "d6" "edge" "properties" "string" ++ "  <graph")%string.
Definition gx_attr (id title : string) : string := ("      <attribute" ++ attr "id" id ++ attr "title" title ++ attr "type" "string" ++ "></attribute>" ++ nl)%string.
(** And of a GEXF export (graph_export.go:344-372, 410-417). *)
Definition gexf_head : string :=
  (xml_header ++ "<gexf" ++ attr "xmlns" "http://www.gexf.net/1.3" ++ attr "version" "1.3" ++ ">" ++ nl ++ "  <meta>" ++ nl ++ "    <creator>cortexdb</creator>" ++ nl ++
   "    <description>Graph exported from cortexdb</description>" ++ nl ++ "  </meta>" ++ nl ++ "  <graph" ++ attr "mode" "static" ++ attr "defaultedgetype" "directed" ++ ">" ++ nl ++
   "    <attributes" ++ attr "class" "node" ++ ">" ++ nl ++ gx_attr "0" "content" ++ gx_attr "1" "type" ++ gx_attr "2" "vector" ++ gx_attr "3" "properties" ++ "    </attributes>" ++ nl)%string.
Lemma substring_head n : forall h r, n <= String.length h -> substring 0 n (h ++ r)%string = substring 0 n h.
Proof.
  induction n as [|n IH]; intros [|a h] r H; cbn in *; try reflexivity; try lia.
  - destruct r; reflexivity.
  - f_equal. apply IH. lia.
Qed.
Lemma detect_range h f : 512 <= String.length h -> forallb (fun n => match detect (substring 0 n h) with Some g => match f, g with FGraphML, FGraphML | FGEXF, FGEXF => true | _, _ => false end | None => false end) (seq 47 466) = true ->
  forall n rest, 47 <= n -> fst (detect_reader n (h ++ rest)%string) = Some f.
Proof.
  intros L C n rest Hn. unfold detect_reader. cbn [fst]. rewrite substring_head by lia.
  rewrite forallb_forall in C. assert (I : In (Nat.min n 512) (seq 47 466)) by (apply in_seq; lia). specialize (C _ I). cbv beta in C.
  destruct (detect (substring 0 (Nat.min n 512) h)) as [g|]; [|discriminate]. destruct f, g; try discriminate; reflexivity.
Qed.
(** What an export has written is recognised from its beginning, however many bytes (but at
    least 47) the one read gives, whatever the graph. *)
Theorem own_export_detected : forall n rest, 47 <= n ->
  fst (detect_reader n (graphml_head ++ rest)%string) = Some FGraphML /\ fst (detect_reader n (gexf_head ++ rest)%string) = Some FGEXF /\ fst (detect_reader n ("{" ++ rest)%string) = Some FJSON.
Proof.
  intros n rest Hn. split; [|split].
  - refine (detect_range _ _ _ _ n rest Hn); [apply Nat.leb_le; vm_compute; reflexivity|vm_compute; reflexivity].
  - refine (detect_range _ _ _ _ n rest Hn); [apply Nat.leb_le; vm_compute; reflexivity|vm_compute; reflexivity].
  - unfold detect_reader. cbn [fst]. destruct (Nat.min n 512) as [|m] eqn:E; [lia|]. cbn [append substring]. unfold detect, ParseModel.trim_space. cbn [ParseModel.drop_left].
    change (ParseModel.is_space "{") with false. cbv iota. cbn [ParseModel.drop_right]. destruct (ParseModel.drop_right (substring 0 m rest)); reflexivity.
Qed.
Example own_export_detected_ex : String.length graphml_head = 605 /\ String.length gexf_head = 569.
Proof. vm_compute. auto. Qed.
Print Assumptions own_export_detected.
(** A GEXF document without the XML declaration is not recognised, one that mentions graphml
    near its beginning is taken for GraphML, and what has been read to find out is gone from
    the reader, so that an import from it fails. *)
Theorem detect_format_refuted :
  fst (detect_reader 512 ("<gexf" ++ attr "version" "1.3" ++ "></gexf>")%string) = None /\
  fst (detect_reader 512 (xml_header ++ "<gexf><meta><description>converted from graphml</description></meta></gexf>")%string) = Some FGraphML /\
  snd (detect_reader 512 "{}") = "".
Proof. vm_compute. auto. Qed.
Print Assumptions detect_format_refuted.
