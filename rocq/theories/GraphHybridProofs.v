(** Proofs about hybrid search in the graph. *)
From Coq Require Import String List NArith ZArith Bool Lia Permutation Sorted.
From Coq Require Import Floats.SpecFloat.
From Verif Require Import Base Floats64 TopK StoreModel StoreProofs GraphModel GraphSpec GraphProofs GraphBfsProofs GraphTravProofs GraphHnswModel GraphHnswSpec GraphHnswProofs.
Import ListNotations.
Open Scope string_scope.
Open Scope list_scope.
Open Scope nat_scope.
From Coq Require Import ZifyBool ZifyNat ZifyN.

Lemma allowed_iff ts t : type_allowed ts t = true <-> passes ts t.
Proof. unfold type_allowed, passes. destruct ts as [|x ts]; [split; auto|]. rewrite in_ids_iff. split; auto. intros [C|H]; [discriminate|exact H]. Qed.

(** *** distances from the start *)
Section Collect.
Variables (ord : string -> list gedge -> list gedge) (d : gdb) (ts : list string) (depth : Z) (start : string).
Hypothesis Ord : any_order ord.
Hypothesis W : weights_numbers d.
Definition along (x y : string) : Prop := exists e, In e (g_edges d) /\ passes ts (ge_type e) /\ ge_from e = x /\ ge_to e = y.
Lemma along_trail x es y : walk d x es y -> Forall (fun e => passes ts (ge_type e)) es -> trail along x (map ge_to es) y.
Proof using Type. induction 1 as [x|x e p y He Hf Wk IH]; intros F; cbn; [constructor|]. inversion F; subst. econstructor; eauto. exists e; auto. Qed.
Definition route_to (x : string) (k : Z) (w : float) : Prop :=
  exists es, walk d start es x /\ Forall (fun e => passes ts (ge_type e)) es /\ Z.of_nat (length es) = k /\ w = fold_left f64_mul (map ge_weight es) f_one.
Definition minimal (x : string) (k : Z) : Prop := forall p, trail along start p x -> (k <= Z.of_nat (length p))%Z.
Lemma inv_far b x k q seen : inv along start b (fun n => (Z.of_nat n <= depth)%Z) ((x, k) :: q) seen -> (depth < k)%Z -> inv along start b (fun n => (Z.of_nat n <= depth)%Z) q seen.
Proof using Type.
  intros [L [B J]] D. split; [eapply levels_tail; eauto|]. split; auto.
  intros p T O. destruct (J p T O) as [z [dz [q2 [[E|I] [Tz [Le U]]]]]]; [|exists z, dz, q2; auto]. injection E as -> ->. lia.
Qed.
Definition place (i : string * Z * float) : string * Z := fst i.
Definition keys (res : list (string * (Z * float))) : list string := map fst res.
Lemma collect_ok fuel : forall queue res,
  (forall x k w, In (x, k, w) queue -> route_to x k w) ->
  (forall b, ~ In b (keys res) -> inv along start b (fun n => (Z.of_nat n <= depth)%Z) (map place queue) (keys res)) ->
  levels (map place queue) ->
  (forall x k w, assoc x res = Some (k, w) -> route_to x k w /\ minimal x k /\ (k <= depth)%Z /\ forall i, In i queue -> (k <= snd (fst i))%Z) ->
  (length queue + fresh ge_from (keys res) (g_edges d) < fuel) ->
  exists out, collect ord fuel d ts depth queue res = Ok out /\
    (forall x k w, assoc x out = Some (k, w) -> route_to x k w /\ minimal x k /\ (k <= depth)%Z) /\
    (NoDup (keys res) -> NoDup (keys out)) /\
    (forall b p, trail along start p b -> (Z.of_nat (length p) <= depth)%Z -> In b (keys out)).
Proof.
  induction fuel as [|fuel IH]; intros queue res Q I Lv R L; [lia|]. cbn [collect]. destruct queue as [|[[x k] w] q].
  - exists res. split; auto. split; [intros x k w H; destruct (R x k w H) as (A & B & C & _); auto|]. split; auto.
    intros b p T Hp. destruct (in_dec String.string_dec b (keys res)) as [H|H]; auto. exfalso. exact (inv_empty _ _ _ _ _ _ (I b H) T Hp).
  - cbn [map place fst] in I, Lv. cbn [length] in L.
    assert (Qt : forall x0 k0 w0, In (x0, k0, w0) q -> route_to x0 k0 w0) by (intros; apply Q; right; auto).
    assert (Rt : forall x0 k0 w0, assoc x0 res = Some (k0, w0) -> route_to x0 k0 w0 /\ minimal x0 k0 /\ (k0 <= depth)%Z /\ forall i, In i q -> (k0 <= snd (fst i))%Z).
    { intros x0 k0 w0 H. destruct (R x0 k0 w0 H) as (A & B & C & D). split; auto. split; auto. split; auto. intros i Hi. apply D. right; auto. }
    destruct (Z.ltb_spec depth k) as [Dk|Dk].
    { apply IH; auto; [|eapply levels_tail; exact Lv|lia]. intros b Hb. eapply inv_far; [exact (I b Hb)|exact Dk]. }
    destruct (assoc x res) as [[k' w']|] eqn:A.
    { assert (Kx : (k' <= k)%Z) by (destruct (R x k' w' A) as (_ & _ & _ & D); apply (D (x, k, w)); left; auto). apply Z.leb_le in Kx. rewrite Kx.
      apply IH; auto; [|eapply levels_tail; exact Lv|lia]. intros b Hb. eapply inv_seen; [exact (I b Hb)|]. apply assoc_in_keys. eauto. }
    assert (Nx : ~ In x (keys res)) by (intros C; apply assoc_in_keys in C as (v & C); congruence).
    destruct (get_edges_ok ord d Ord W x "out" eq_refl) as [es [-> P]].
    assert (Hes : forall e, In e es <-> In e (g_edges d) /\ ge_from e = x).
    { intros e. split.
      - intros He. apply (Permutation_in _ P) in He. apply filter_In in He as [He T]. apply String.eqb_eq in T. auto.
      - intros [He T]. apply (Permutation_in _ (Permutation_sym P)). apply filter_In. split; auto. apply String.eqb_eq; auto. }
    assert (Kr : drop_key x res = res).
    { apply filter_all. intros [a v] Ha. cbn. apply negb_true_iff, String.eqb_neq. intros ->. apply Nx. apply in_map_iff. exists (x, v). auto. }
    assert (Kp : keys (put_key x (k, w) res) = x :: keys res) by (unfold put_key, keys; rewrite Kr; reflexivity).
    set (next := map (fun e => (ge_to e, (k + 1)%Z, f64_mul w (ge_weight e))) (filter (fun e => type_allowed ts (ge_type e)) es)).
    assert (Mp : map place (q ++ next) = map place q ++ map (fun y => (y, (k + 1)%Z)) (map ge_to (filter (fun e => type_allowed ts (ge_type e)) es))).
    { rewrite map_app. f_equal. unfold next. rewrite !map_map. reflexivity. }
    destruct (Q x k w (or_introl eq_refl)) as (es0 & Wk & Fe & Lk & Ew).
    destruct (IH (q ++ next) (put_key x (k, w) res)) as (out & E1 & E2 & E3 & E4).
    + intros y k1 w1 H. apply in_app_or in H as [H|H]; [apply Qt; exact H|]. unfold next in H. apply in_map_iff in H as (e & E & He). injection E as <- <- <-.
      apply filter_In in He as [He Hp]. apply Hes in He as [He Hf]. exists (es0 ++ [e]). split; [eapply walk_snoc; eauto|]. split; [apply Forall_app; split; auto; constructor; [apply allowed_iff; exact Hp|constructor]|].
      rewrite app_length, map_app, fold_left_app. cbn [length map fold_left]. split; [lia|]. rewrite <- Ew. reflexivity.
    + intros b Hb. rewrite Kp in Hb |- *. rewrite Mp. eapply inv_expand; [apply I; intros C; apply Hb; right; exact C|intros C; apply Hb; left; exact C|].
      intros y (e & He & Hp & Hf & Ht) _. apply in_map_iff. exists e. split; auto. apply filter_In. split; [apply Hes; auto|apply allowed_iff; exact Hp].
    + rewrite Mp. eapply (levels_push along); [exact Lv|]. intros i Hi. apply in_map_iff in Hi as (y & <- & _). reflexivity.
    + intros y k1 w1 H. rewrite assoc_put in H. destruct (String.eqb_spec y x) as [->|Ny].
      * injection H as <- <-. split; [exists es0; auto|]. split; [|split; [exact Dk|]].
        -- intros p T. destruct (Z.le_gt_cases (Z.of_nat (length p)) depth) as [Lp|Lp]; [|lia]. exact (inv_target _ _ _ _ _ _ _ _ (I x Nx) T Lp).
        -- intros i Hi. apply in_app_or in Hi as [Hi|Hi].
           ++ change (snd (fst i)) with (snd (place i)). apply (levels_head along _ _ _ Lv). right. apply in_map. exact Hi.
           ++ unfold next in Hi. apply in_map_iff in Hi as (e & <- & _). cbn. lia.
      * destruct (R y k1 w1 H) as (A1 & A2 & A3 & A4). split; auto. split; auto. split; auto. intros i Hi. apply in_app_or in Hi as [Hi|Hi]; [apply A4; right; exact Hi|].
        unfold next in Hi. apply in_map_iff in Hi as (e & <- & _). cbn. specialize (A4 (x, k, w) (or_introl eq_refl)). cbn in A4. lia.
    + rewrite Kp, app_length. unfold next. rewrite map_length. pose proof (fresh_split ge_from (keys res) x (g_edges d) Nx) as Sp.
      pose proof (filter_le (fun e => type_allowed ts (ge_type e)) es) as Le. pose proof (Permutation_length P) as Pl.
      replace (filter (fun e => String.eqb (ge_from e) x) (g_edges d)) with (filter (touches "out" x) (g_edges d)) in Sp by reflexivity. lia.
    + exists out. split; auto. split; auto. split; auto. intros Nd. apply E3. rewrite Kp. constructor; auto.
Qed.
End Collect.

Lemma filter_depth_eq f : match f with Some f => if Z.ltb 0 (gf_depth f) then gf_depth f else 3%Z | None => 3%Z end = filter_depth f.
Proof. reflexivity. Qed.
Lemma assoc_filter {A} (p : string -> bool) id (l : list (string * A)) : assoc id (filter (fun x => p (fst x)) l) = if p id then assoc id l else None.
Proof.
  induction l as [|[a v] l IH]; cbn [filter assoc]; [destruct (p id); reflexivity|]. cbn [fst]. destruct (p a) eqn:P; cbn [assoc].
  - destruct (String.eqb_spec id a) as [->|N]; [rewrite P; reflexivity|]. exact IH.
  - destruct (String.eqb_spec id a) as [->|N]; [rewrite IH, P; reflexivity|]. exact IH.
Qed.
Lemma shortest_of d ts x y k w : route_to d ts x y k w -> minimal d ts x y k ->
  exists es, shortest d ts x es y /\ Z.of_nat (length es) = k /\ w = fold_left f64_mul (map ge_weight es) (f64_of_Z 1).
Proof.
  intros (es & Wk & F & L & E) M. exists es. split; [|auto]. split; [exact Wk|]. split; [exact F|]. intros es' W' F'. pose proof (M _ (along_trail d ts x es' y W' F')) as K. rewrite map_length in K. lia.
Qed.
Lemma graph_distances_ok ord d start f : any_order ord -> weights_numbers d -> unique_ids d -> start <> "" ->
  exists res, graph_distances ord d start f = Ok res /\ NoDup (map fst res) /\ near_table d start f (fun id => assoc id res).
Proof.
  intros O Wt U Hs. unfold graph_distances. rewrite filter_depth_eq.
  destruct (collect_ok ord d (edge_types f) (filter_depth f) start O Wt (2 + length (g_edges d)) [(start, 0%Z, f_one)] []) as (out & -> & R & N & C).
  - intros x k w [E|[]]. injection E as <- <- <-. exists []. split; [constructor|]. split; [constructor|]. split; reflexivity.
  - intros b _. apply inv_start.
  - exists 0%Z, [(start, 0%Z)], []. split; auto. split; [intros i [<-|[]]; auto|intros i []].
  - intros x k w H. discriminate.
  - cbn [length]. pose proof (fresh_le ge_from (keys []) (g_edges d)). lia.
  - cbn [bind]. eexists. split; [reflexivity|]. specialize (N (NoDup_nil _)).
    assert (Ty : node_types f = filter_nodes f) by reflexivity. assert (Te : edge_types f = filter_edges f) by reflexivity. rewrite Te in *. rewrite Ty. clear Ty Te.
    set (vis := fun id => match filter_nodes f with [] => true | types => match find (node_is id) (g_nodes d) with Some n => in_ids types (n_type n) | None => false end end).
    assert (E : match filter_nodes f with [] => out | types => filter (fun p => match find (node_is (fst p)) (g_nodes d) with Some n => in_ids types (n_type n) | None => false end) out end = filter (fun p => vis (fst p)) out).
    { unfold vis. destruct (filter_nodes f); auto. symmetry. apply filter_all. auto. }
    rewrite E. split; [apply NoDup_map_filter; exact N|].
    assert (V : forall id, vis id = true <-> (filter_nodes f = [] \/ exists n, In n (g_nodes d) /\ n_id n = id /\ In (n_type n) (filter_nodes f))).
    { intros id. unfold vis. destruct (filter_nodes f) as [|t l]; [split; auto|]. split.
      - intros H. right. destruct (find (node_is id) (g_nodes d)) as [n|] eqn:Fn; [|discriminate]. apply (find_node d id n U) in Fn as [F1 F2]. exists n. split; auto. split; auto. apply in_ids_iff. exact H.
      - intros [C1|(n & F1 & F2 & F3)]; [discriminate|]. rewrite (proj2 (find_node d id n U) (conj F1 F2)). apply in_ids_iff. exact F3. }
    intros id. cbv zeta. rewrite assoc_filter. split.
    + intros k w H. destruct (vis id) eqn:Vi; [|discriminate]. destruct (R id k w H) as (R1 & R2 & R3). split; auto. split; [apply V; exact Vi|]. split; auto. apply shortest_of; auto.
    + intros _ Vi es (S1 & S2 & _) L Q. apply V in Vi. rewrite Vi in Q. assert (In id (keys out)).
      { apply (C id (map ge_to es)); [apply along_trail; auto|rewrite map_length; exact L]. }
      apply assoc_in_keys in H as (v & H). congruence.
Qed.

(** *** candidates *)
Section Hybrid.
Variable cos : list N -> list N -> float.
Variable srt_c : list (string * float) -> list (string * float).
Hypothesis S : sort_ok closer srt_c.

Lemma load_in d ids types : unique_ids d -> NoDup ids -> NoDup (map n_id (load_nodes d ids types)) /\ (forall n, In n (load_nodes d ids types) <-> In n (g_nodes d) /\ In (n_id n) ids /\ passes types (n_type n)).
Proof using Type.
  intros U N. split.
  - induction ids as [|x ids IH]; [constructor|]. apply NoDup_cons_iff in N as [N1 N2]. unfold load_nodes. cbn [flat_map]. fold (load_nodes d ids types).
    rewrite map_app. apply NoDup_app_intro; auto.
    + destruct (find (node_is x) (g_nodes d)) as [n|]; [|constructor]. destruct (type_allowed types (n_type n)); [constructor; [intros []|constructor]|constructor].
    + intros y Hy Hy2. destruct (find (node_is x) (g_nodes d)) as [n|] eqn:F; [|destruct Hy]. apply (find_node d x n U) in F as [_ F]. destruct (type_allowed types (n_type n)); [|destruct Hy]. destruct Hy as [<-|[]].
      apply in_map_iff in Hy2 as (m & Em & Hm). unfold load_nodes in Hm. apply in_flat_map in Hm as (z & Hz & Hm). destruct (find (node_is z) (g_nodes d)) as [n2|] eqn:F2; [|destruct Hm].
      apply (find_node d z n2 U) in F2 as [_ F2]. destruct (type_allowed types (n_type n2)); [|destruct Hm]. destruct Hm as [->|[]]. apply N1. congruence.
  - intros n. unfold load_nodes. rewrite in_flat_map. split.
    + intros (z & Hz & Hm). destruct (find (node_is z) (g_nodes d)) as [n2|] eqn:F2; [|destruct Hm]. apply (find_node d z n2 U) in F2 as [F1 F2]. destruct (type_allowed types (n_type n2)) eqn:T; [|destruct Hm]. destruct Hm as [->|[]].
      split; auto. split; [congruence|apply allowed_iff; exact T].
    + intros (A & B & C). exists (n_id n). split; auto. rewrite (proj2 (find_node d (n_id n) n U) (conj A eq_refl)). apply allowed_iff in C. rewrite C. left; reflexivity.
Qed.
Lemma candidates_ok s q : unique_ids (s_db s) -> exists cands, vector_candidates cos srt_c s q = Ok cands /\ NoDup (map n_id cands) /\
  (forall n, In n cands -> In n (g_nodes (s_db s)) /\ passes (filter_nodes (hq_filter q)) (n_type n)) /\
  (s_ix s = None \/ (hq_topk q <= 0)%Z -> forall n, In n (g_nodes (s_db s)) -> passes (filter_nodes (hq_filter q)) (n_type n) -> In n cands) /\
  (cands = [] -> forall n, In n (g_nodes (s_db s)) -> ~ passes (filter_nodes (hq_filter q)) (n_type n)).
Proof.
  intros U. set (P := fun cands => NoDup (map n_id cands) /\ (forall n, In n cands -> In n (g_nodes (s_db s)) /\ passes (filter_nodes (hq_filter q)) (n_type n))).
  set (all := all_nodes (s_db s) (node_types (hq_filter q))).
  assert (Pa : P all /\ forall n, In n (g_nodes (s_db s)) -> passes (filter_nodes (hq_filter q)) (n_type n) -> In n all).
  { split; [split|].
    - apply NoDup_map_filter. apply U.
    - intros n Hn. apply filter_In in Hn as [H1 H2]. apply allowed_iff in H2. auto.
    - intros n H1 H2. apply filter_In. split; auto. apply allowed_iff. exact H2. }
  destruct Pa as [[Pa1 Pa2] Pa3].
  assert (Dflt : exists cands, Ok all = Ok cands /\ NoDup (map n_id cands) /\
    (forall n, In n cands -> In n (g_nodes (s_db s)) /\ passes (filter_nodes (hq_filter q)) (n_type n)) /\
    (s_ix s = None \/ (hq_topk q <= 0)%Z -> forall n, In n (g_nodes (s_db s)) -> passes (filter_nodes (hq_filter q)) (n_type n) -> In n cands) /\
    (cands = [] -> forall n, In n (g_nodes (s_db s)) -> ~ passes (filter_nodes (hq_filter q)) (n_type n))).
  { exists all. split; auto. split; auto. split; auto. split; auto. intros E n H1 H2. pose proof (Pa3 n H1 H2) as C. rewrite E in C. destruct C. }
  unfold vector_candidates. fold all. destruct (s_ix s) as [h|] eqn:Ix; [|exact Dflt]. destruct (Z.ltb_spec 0 (hq_topk q)) as [K|K]; [|exact Dflt].
  set (kk := if Z.ltb (hq_topk q * 5) 50 then 50%Z else (hq_topk q * 5)%Z). destruct (ix_find_ok cos srt_c S h (hq_vec q) kk) as (found & -> & N & _); [unfold kk; destruct (Z.ltb_spec (hq_topk q * 5) 50); lia|].
  cbn [bind]. destruct (load_in (s_db s) (map fst found) (node_types (hq_filter q)) U N) as [L1 L2]. destruct (load_nodes (s_db s) (map fst found) (node_types (hq_filter q))) as [|c r] eqn:Ld; [exact Dflt|].
  exists (c :: r). split; auto. split; auto. split; [|split].
  - intros n Hn. apply L2 in Hn as (A & _ & B). auto.
  - intros [C|C]; [discriminate|lia].
  - discriminate.
Qed.

Variable sim : list N -> list N -> float.
Variable srt_r : list hresult -> list hresult.
Hypothesis Sr : sort_ok higher srt_r.
Lemma higher_weak (l : list hresult) : (forall r, In r l -> not_nan (h_score r)) -> weak_order_on higher l.
Proof using Type. intros H. exact (weak_order_desc h_score l H). Qed.
Lemma topk_any (all l : list hresult) k : Permutation all l -> (forall r, In r all -> not_nan (h_score r)) ->
  is_topk higher (all_or k all) all (if Z.ltb 0 k then firstn (Z.to_nat k) (srt_r l) else srt_r l).
Proof using Sr.
  intros P NN. unfold all_or. assert (Wk : weak_order_on higher l) by (apply higher_weak; intros r Hr; apply NN; eapply Permutation_in; [apply Permutation_sym; exact P|exact Hr]).
  apply (is_topk_perm higher _ l all); [apply Permutation_sym; exact P|]. destruct (Z.ltb_spec 0 k).
  - apply topk_of_sort; auto.
  - pose proof (topk_of_sort higher srt_r (length all) l Sr Wk) as T. rewrite firstn_all2 in T; [exact T|]. rewrite <- (Permutation_length (proj1 (Sr l))), (Permutation_length P). lia.
Qed.
Lemma settle_ok w : settled w (settle_weights w).
Proof using Type.
  unfold settled, settle_weights. cbv zeta. set (t := f64_add (f64_add (w_vector w) (w_graph w)) (w_edge w)). destruct (feq t f_zero) eqn:E; [left; split; reflexivity|right].
  change f_one with (f64_of_Z 1). change (RagModel.dec 1 1000) with (f64_div (f64_of_Z 1) (f64_of_Z 1000)). destruct (fgt _ _) eqn:G; [left|right]; split; auto.
Qed.
Lemma fge_fle a b : fge a b = fle b a.
Proof using Type. reflexivity. Qed.

Variable ord : string -> list gedge -> list gedge.
Variable shuffle : list hresult -> list hresult.
Hypothesis Ord : any_order ord.
Hypothesis Sh : forall l, Permutation l (shuffle l).

Lemma hybrid_ok s q : unique_ids (s_db s) -> weights_numbers (s_db s) ->
  exists out w near cands all, hybrid_graph_search cos srt_c sim srt_r ord shuffle s q = Ok out /\
    settled (hq_weights q) w /\ near_table (s_db s) (hq_start q) (hq_filter q) near /\
    (forall n, In n cands -> In n (g_nodes (s_db s)) /\ passes (filter_nodes (hq_filter q)) (n_type n)) /\
    (s_ix s = None \/ (hq_topk q <= 0)%Z -> hq_vec q <> [] -> forall n, In n (g_nodes (s_db s)) -> passes (filter_nodes (hq_filter q)) (n_type n) -> In n cands) /\
    (cands = [] -> hq_vec q <> [] -> forall n, In n (g_nodes (s_db s)) -> ~ passes (filter_nodes (hq_filter q)) (n_type n)) /\
    NoDup (map result_id all) /\
    (forall r, In r all <-> In (h_node r) (g_nodes (s_db s)) /\ expected sim q w near cands r) /\
    incl out all /\ NoDup (map result_id out) /\ length out = Nat.min (all_or (hq_topk q) all) (length all) /\
    ((forall r, In r all -> not_nan (h_score r)) -> is_topk higher (all_or (hq_topk q) all) all out).
Proof.
  intros U Wt. unfold hybrid_graph_search.
  assert (C : exists cands, match hq_vec q with [] => Ok [] | _ => vector_candidates cos srt_c s q end = Ok cands /\ NoDup (map n_id cands) /\
    (forall n, In n cands -> In n (g_nodes (s_db s)) /\ passes (filter_nodes (hq_filter q)) (n_type n)) /\
    (s_ix s = None \/ (hq_topk q <= 0)%Z -> hq_vec q <> [] -> forall n, In n (g_nodes (s_db s)) -> passes (filter_nodes (hq_filter q)) (n_type n) -> In n cands) /\
    (cands = [] -> hq_vec q <> [] -> forall n, In n (g_nodes (s_db s)) -> ~ passes (filter_nodes (hq_filter q)) (n_type n)) /\ (hq_vec q = [] -> cands = [])).
  { destruct (hq_vec q) as [|b v] eqn:V.
    - exists []. split; auto. split; [constructor|]. split; [intros n []|]. split; [intros _ H; destruct (H eq_refl)|]. split; [intros _ H; destruct (H eq_refl)|auto].
    - destruct (candidates_ok s q U) as (cands & E & A1 & A2 & A3 & A4). exists cands. split; auto. split; auto. split; auto. split; auto. split; auto. discriminate. }
  destruct C as (cands & -> & Cn & Ci & Ca & Ce & Cv). cbn [bind].
  assert (G : exists res, (if String.eqb (hq_start q) "" then Ok [] else graph_distances ord (s_db s) (hq_start q) (hq_filter q)) = Ok res /\ NoDup (map fst res) /\ near_table (s_db s) (hq_start q) (hq_filter q) (fun id => assoc id res)).
  { destruct (String.eqb_spec (hq_start q) "") as [E|E]; [|apply graph_distances_ok; auto]. exists []. split; auto. split; [constructor|]. intros id. cbv zeta. split; [intros k w H; discriminate|]. rewrite E. intros H. destruct (H eq_refl). }
  destruct G as (res & -> & Rn & Nt). cbn [bind].
  set (w := settle_weights (hq_weights q)). set (hits := filter _ cands). set (others := flat_map _ res). set (all := map (vector_hit sim (hq_vec q) w res) hits ++ others).
  assert (Hh : forall n, In n hits <-> matched sim q cands n).
  { intros n. unfold hits. rewrite filter_In, orb_true_iff. unfold matched. rewrite fge_fle. split.
    - intros [H1 H2]. split; auto. intros Z. rewrite (Cv Z) in H1. destruct H1.
    - intros (_ & H1 & H2). auto. }
  assert (Ho : forall r, In r others <-> exists n k x, In n (g_nodes (s_db s)) /\ ~ In (n_id n) (map n_id hits) /\ assoc (n_id n) res = Some (k, x) /\ r = graph_hit sim (hq_vec q) w k x n).
  { intros r. unfold others. rewrite in_flat_map. split.
    - intros ([id [k x]] & Hp & H). cbn [fst snd] in H. destruct (in_ids (map n_id hits) id) eqn:Hid; [destruct H|]. unfold get_node in H. destruct (find (node_is id) (g_nodes (s_db s))) as [n|] eqn:F; [|destruct H].
      destruct H as [<-|[]]. apply (find_node _ id n U) in F as [F1 F2]. exists n, k, x. rewrite F2. split; auto. split; [apply in_ids_false; exact Hid|]. split; [|reflexivity].
      clear - Rn Hp. induction res as [|[a v] res IH]; [destruct Hp|]. cbn [map fst] in Rn. apply NoDup_cons_iff in Rn as [N1 N2]. cbn [assoc]. destruct (String.eqb_spec id a) as [->|Ne].
      + destruct Hp as [E|Hp]; [congruence|]. exfalso. apply N1. apply in_map_iff. exists (a, (k, x)). auto.
      + destruct Hp as [E|Hp]; [congruence|auto].
    - intros (n & k & x & H1 & H2 & H3 & ->). exists (n_id n, (k, x)). split.
      + clear - H3. induction res as [|[a v] res IH]; [discriminate|]. cbn [assoc] in H3. destruct (String.eqb_spec (n_id n) a) as [<-|Ne]; [left; congruence|right; auto].
      + cbn [fst snd]. rewrite (proj2 (in_ids_false _ _) H2). unfold get_node. rewrite (proj2 (find_node _ (n_id n) n U) (conj H1 eq_refl)). left; reflexivity. }
  assert (Nd : NoDup (map result_id all)).
  { unfold all. rewrite map_app, map_map. apply NoDup_app_intro.
    - change (NoDup (map n_id hits)). apply NoDup_map_filter. exact Cn.
    - unfold others. clear - Rn U. induction res as [|[id [k x]] res IH]; [constructor|]. cbn [map fst] in Rn. apply NoDup_cons_iff in Rn as [N1 N2]. cbn [flat_map fst snd]. rewrite map_app. apply NoDup_app_intro; auto.
      + destruct (in_ids _ id); [constructor|]. destruct (get_node (s_db s) id); [constructor; [intros []|constructor]|constructor|constructor].
      + intros y Hy Hy2. destruct (in_ids _ id); [destruct Hy|]. unfold get_node in Hy. destruct (find (node_is id) (g_nodes (s_db s))) as [n|] eqn:F; [|destruct Hy]. apply (find_node _ id n U) in F as [_ F]. destruct Hy as [<-|[]].
        apply in_map_iff in Hy2 as (r & Er & Hr). apply in_flat_map in Hr as ([id2 [k2 x2]] & Hp & Hr). cbn [fst snd] in Hr. destruct (in_ids _ id2); [destruct Hr|]. unfold get_node in Hr. destruct (find (node_is id2) (g_nodes (s_db s))) as [n2|] eqn:F2; [|destruct Hr].
        apply (find_node _ id2 n2 U) in F2 as [_ F2]. destruct Hr as [<-|[]]. unfold result_id in Er; cbn [graph_hit h_node] in Er. apply N1. apply in_map_iff. exists (id2, (k2, x2)). split; auto. cbn [fst]. congruence.
    - intros y Hy Hy2. change (In y (map n_id hits)) in Hy. apply in_map_iff in Hy2 as (r & <- & Hr). apply Ho in Hr as (n & k & x & _ & H2 & _ & ->). cbn in Hy. auto. }
  assert (Hall : forall r, In r all <-> In (h_node r) (g_nodes (s_db s)) /\ expected sim q w (fun id => assoc id res) cands r).
  { intros r. unfold all. rewrite in_app_iff, in_map_iff, Ho. split.
    - intros [(n & <- & Hn)|(n & k & x & H1 & H2 & H3 & ->)].
      + apply Hh in Hn. cbn [vector_hit h_node]. split; [apply Ci; apply Hn|]. left. cbn [vector_hit h_node h_vector h_score h_graph h_distance]. split; auto. split; auto. split; auto.
        destruct (assoc (n_id n) res) as [[k x]|] eqn:A; [right; exists k, x; auto|left; auto].
      + cbn [graph_hit h_node]. split; auto. right. cbn [graph_hit h_node h_vector h_score h_graph h_distance]. split; [intros M; apply Hh in M; apply H2; apply in_map; exact M|]. split; auto. exists k, x. split; auto.
    - intros [Hs [(M & E1 & E2 & E3)|(M & E1 & k & x & E2 & E3 & E4 & E5)]].
      + left. exists (h_node r). split; [|apply Hh; exact M]. destruct r as [n v g sc ds]. cbn [h_node h_vector h_score h_graph h_distance] in *. unfold vector_hit.
        destruct E3 as [(A1 & A2 & A3)|(k & x & A1 & A2 & A3)]; rewrite A1; subst; reflexivity.
      + right. exists (h_node r), k, x. split; auto. split; [|split; auto].
        * intros C. apply in_map_iff in C as (n2 & C1 & C2). assert (n2 = h_node r).
          { apply Hh in C2. destruct (Ci n2 (proj1 (proj2 C2))) as [C3 _]. pose proof (proj2 (find_node _ (n_id n2) n2 U) (conj C3 eq_refl)) as F1. pose proof (proj2 (find_node _ (n_id (h_node r)) (h_node r) U) (conj Hs eq_refl)) as F2. rewrite C1 in F1. congruence. }
          subst n2. apply Hh in C2. auto.
        * destruct r as [n v g sc ds]. cbn [h_node h_vector h_score h_graph h_distance] in *. unfold graph_hit. subst. reflexivity. }
  pose proof (Sh all) as Pa. pose proof (proj1 (Sr (shuffle all))) as Pb. pose proof (Permutation_trans Pa Pb) as Pc. eexists; exists w, (fun id => assoc id res), cands, all. split; [reflexivity|].
  split; [apply settle_ok|]. split; [exact Nt|]. split; [exact Ci|]. split; [exact Ca|]. split; [exact Ce|]. split; [exact Nd|]. split; [exact Hall|].
  assert (Ns : NoDup (map result_id (srt_r (shuffle all)))) by (eapply Permutation_NoDup; [apply Permutation_map; exact Pc|exact Nd]).
  split; [|split; [|split]].
  - intros r Hr. eapply Permutation_in; [apply Permutation_sym; exact Pc|]. destruct (Z.ltb 0 (hq_topk q)); [eapply in_firstn; exact Hr|exact Hr].
  - destruct (Z.ltb 0 (hq_topk q)); [|exact Ns]. rewrite <- firstn_map. apply NoDup_firstn. exact Ns.
  - unfold all_or. destruct (Z.ltb 0 (hq_topk q)); [rewrite firstn_length, (Permutation_length Pc); reflexivity|]. rewrite <- (Permutation_length Pc). lia.
  - intros NN. apply topk_any; auto.
Qed.
End Hybrid.
