(** C55, C56 and the properties of the semantic router and the caching embedder. *)
From Coq Require Import String List NArith ZArith Bool Lia Permutation.
From Coq Require Import Floats.SpecFloat.
From Verif Require Import Base Floats64 EncodingModel EncodingProofs DimensionModel SimilarityModel StoreModel StoreSpec StoreInv StoreProofs2 StoreProofs3 StoreProps
  SearchModel SearchSpec SearchProofs SearchProps RouterModel RouterSpec RouterProofs RouterStoreProofs.
Import ListNotations.
Open Scope string_scope.
Open Scope list_scope.

(** *** examples *)
Definition emb_of (t : string) : list N :=
  if String.eqb t "hello" then v10 else if String.eqb t "hi" then v11 else v01.
Definition steady : embedder := {| em_one := fun t => Some (emb_of t); em_batch := fun ts => Some (map emb_of ts); em_dim := 2 |}.
Definition one_by_one : embedder := {| em_one := fun t => Some (emb_of t); em_batch := fun _ => None; em_dim := 2 |}.
(** Answers queries but fails on "hello" as an utterance. *)
Definition flaky : embedder := {| em_one := fun t => if String.eqb t "hello" then None else Some (emb_of t); em_batch := fun _ => None; em_dim := 2 |}.
Definition call (c : rcall) : rop := {| op_call := c; op_emb := steady; op_evs := fun _ => good_env |}.
Definition call_with (em : embedder) (c : rcall) : rop := {| op_call := c; op_emb := em; op_evs := fun _ => good_env |}.
Definition rt_ (n : string) (us : list string) : route := {| rt_name := n; rt_utts := us; rt_handler := Some 7%Z |}.
Definition greet : route := rt_ "greet" ["hello"; "hi"].
Definition leave : route := rt_ "leave" ["bye"].
Definition rthreshold : float := f64_div (f64_of_Z 1) (f64_of_Z 2).
Definition plain_run (sim : list N -> list N -> float) (ops : list rop) : router list_index :=
  rrun list_index (isort by_score) no_noise Linear cosine_scorer (new_router list_index rthreshold sim true) ops.
Definition plain_query (em : embedder) (rt : router list_index) (q : string) : outcome answer :=
  snd (route_query list_index (isort by_score) no_noise Linear cosine_scorer em rt q).
Definition backed : router list_index :=
  {| ro_entries := []; ro_threshold := rthreshold; ro_sim := cosine; ro_caching := true; ro_store := Some (filled []) |}.
Definition backed_run (ops : list rop) : router list_index :=
  rrun list_index (isort by_score) no_noise Linear cosine_scorer backed ops.
Definition reopened (ops : list rop) : outcome (list (string * list string)) :=
  match ro_store list_index (backed_run ops) with
  | None => Err EOther
  | Some s => bind (new_router_with_store list_index (isort by_score) no_noise Linear cosine_scorer (fun l => l) steady rthreshold cosine true s)
                (fun rt => Ok (map (fun e => (rt_name (en_route e), rt_utts (en_route e))) (ro_entries list_index rt)))
  end.

(** ** The registered routes *)
(** List and Get show the routes registered by the history; without a store a call
    that registers or removes succeeds exactly when it may. *)
Theorem router_registry_exact :
  forall I srt noise md sc thr sim caching ops,
  let rt := rrun I srt noise md sc (new_router I thr sim caching) ops in
  exists cur, registered [] ops cur /\
    list_routes I rt = map rt_name cur /\
    (forall n r, get_route I rt n = Some r <-> exists a b, first_named n cur a r b) /\
    (forall c em evs, (match c with CRoute _ | CRouteBatch _ => False | _ => True end) ->
       (snd (rstep I srt noise md sc rt {| op_call := c; op_emb := em; op_evs := evs |}) = Ok tt <-> succeeds cur c)).
Proof.
  intros I srt noise md sc thr sim caching ops rt. exists (routes_of rt). split; [exact (run_registered I srt noise md sc (new_router I thr sim caching) ops)|].
  split; [unfold list_routes, routes_of; rewrite map_map; reflexivity|]. split; [intros n r; apply get_iff|].
  intros c em evs M. apply (step_succeeds I srt noise md sc rt {| op_call := c; op_emb := em; op_evs := evs |}); [|exact M].
  apply run_store. reflexivity.
Qed.
Print Assumptions router_registry_exact.
Example router_registry_ex :
  list_routes _ (plain_run cosine [call (CAdd (Some greet)); call (CAdd (Some greet)); call (CAddBatch [Some leave; Some (rt_ "other" ["x"])]); call (CRemove "leave")])
  = ["greet"; "other"].
Proof. vm_compute. reflexivity. Qed.

(** Two routes of one batch may share a name: the second can be listed but never be
    read, and removing the name once leaves it registered. *)
Theorem router_unique_names_refuted :
  let rt := plain_run cosine [call (CAddBatch [Some greet; Some (rt_ "greet" ["bye"])])] in
  list_routes _ rt = ["greet"; "greet"] /\
  list_routes _ (fst (rstep list_index (isort by_score) no_noise Linear cosine_scorer rt (call (CRemove "greet")))) = ["greet"].
Proof. split; vm_compute; reflexivity. Qed.
(** Names added one at a time stay distinct. *)
Definition no_batch (o : rop) : Prop := match op_call o with CAddBatch _ => False | _ => True end.
Theorem router_unique_names_partial :
  forall I srt noise md sc thr sim caching ops, Forall no_batch ops ->
  NoDup (list_routes I (rrun I srt noise md sc (new_router I thr sim caching) ops)).
Proof.
  intros I srt noise md sc thr sim caching ops F.
  assert (G : forall ops cur, Forall no_batch ops -> registered [] ops cur -> NoDup (map rt_name cur)).
  { clear. intros ops cur F R. induction R as [|ops cur o cur' R IH C]; [constructor|]. apply Forall_app in F as [F1 F2]. inversion F2 as [|? ? F3 _]; subst.
    specialize (IH F1). unfold no_batch in F3. destruct (op_call o) as [[r|]|l|n|q|qs]; cbn in C; try (subst; exact IH); [| |].
    - destruct C as [[(_ & _ & M) ->]|[_ ->]]; auto. rewrite map_app. apply NoDup_app_intro; auto; [repeat constructor; cbn; tauto|].
      intros x Hx [<-|[]]. apply in_map_iff in Hx as (r' & E & H). destruct (M r' H E).
    - destruct F3.
    - destruct C as [(a & r & b & (-> & _ & _) & ->)|[_ ->]]; auto. rewrite map_app in *. cbn in IH. apply NoDup_remove_1 in IH. exact IH. }
  unfold list_routes. rewrite <- (map_map en_route rt_name). apply (G ops); [exact F|].
  exact (run_registered I srt noise md sc (new_router I thr sim caching) ops).
Qed.
Print Assumptions router_unique_names_partial.
Example router_unique_names_ex : Forall no_batch [call (CAdd (Some greet)); call (CAdd (Some leave)); call (CRoute "hi")].
Proof. repeat constructor. Qed.

(** ** C55 *)
(** Whatever was added, removed and routed before, a router without a store names the
    first route with the highest positive score. *)
Theorem route_exact :
  forall I srt noise md sc thr sim caching emb ops em q,
  Forall (fun o => answers emb (op_emb o)) ops -> answers emb em -> q <> "" ->
  exists cur a, registered [] ops cur /\
    snd (route_query I srt noise md sc em (rrun I srt noise md sc (new_router I thr sim caching) ops) q) = Ok a /\
    right_answer sim emb thr cur q a.
Proof.
  intros I srt noise md sc thr sim caching emb ops em q F A Q. set (rt := rrun I srt noise md sc (new_router I thr sim caching) ops).
  assert (N : ro_store I rt = None) by (apply run_store; reflexivity).
  destruct (query_ok I srt noise md sc emb em rt q A N) as (a & E & R); [|exact Q|].
  - apply run_cache; auto. constructor.
  - destruct (run_config I srt noise md sc (new_router I thr sim caching) ops) as [C1 C2]. fold rt in C1, C2. rewrite C1, C2 in R.
    exists (routes_of rt), a. split; [exact (run_registered I srt noise md sc (new_router I thr sim caching) ops)|]. auto.
Qed.
Print Assumptions route_exact.
Lemma steady_answers : answers emb_of steady.
Proof. split; [reflexivity|]. intros ts. left. reflexivity. Qed.
Lemma one_by_one_answers : answers emb_of one_by_one.
Proof. split; [reflexivity|]. intros ts. right. reflexivity. Qed.
Example route_exact_ex :
  let ops := [call (CAdd (Some leave)); call (CAdd (Some greet)); call_with one_by_one (CRoute "hi"); call (CRemove "other")] in
  Forall (fun o => answers emb_of (op_emb o)) ops /\
  plain_query steady (plain_run cosine ops) "hello" = Ok {| an_name := "greet"; an_score := f64_of_Z 1; an_matched := true; an_handler := Some 7%Z |}.
Proof.
  split; [repeat (apply Forall_cons; [exact steady_answers || exact one_by_one_answers|]); apply Forall_nil|vm_compute; reflexivity].
Qed.
(** Routing a batch answers every query as if alone. *)
Theorem route_batch_exact :
  forall I srt noise md sc thr sim caching emb ops em qs,
  Forall (fun o => answers emb (op_emb o)) ops -> answers emb em ->
  exists cur l, registered [] ops cur /\
    snd (route_batch I srt noise md sc em (rrun I srt noise md sc (new_router I thr sim caching) ops) qs) = Ok l /\
    Forall2 (fun q a => (q = "" -> a = no_answer) /\ (q <> "" -> right_answer sim emb thr cur q a)) qs l.
Proof.
  intros I srt noise md sc thr sim caching emb ops em qs F A. set (rt0 := rrun I srt noise md sc (new_router I thr sim caching) ops).
  exists (routes_of rt0).
  assert (G : forall qs rt, ro_store I rt = None -> Forall (fresh_cache emb) (ro_entries I rt) -> ro_sim I rt = sim -> ro_threshold I rt = thr ->
    exists l, snd (route_batch I srt noise md sc em rt qs) = Ok l /\
      Forall2 (fun q a => (q = "" -> a = no_answer) /\ (q <> "" -> right_answer sim emb thr (routes_of rt) q a)) qs l).
  { clear -A. induction qs as [|q qs IH]; intros rt N C E1 E2; [exists []; split; constructor|]. cbn [route_batch].
    pose proof (query_same I srt noise md sc em rt q) as [S1 S2]. pose proof (query_cache I srt noise md sc emb em rt q A N C) as C'.
    pose proof (step_config I srt noise md sc rt {| op_call := CRoute q; op_emb := em; op_evs := fun _ => good_env |}) as K. cbn [rstep op_call op_emb] in K.
    assert (X : exists a, snd (route_query I srt noise md sc em rt q) = Ok a /\ (q = "" -> a = no_answer) /\ (q <> "" -> right_answer sim emb thr (routes_of rt) q a)).
    { destruct (String.eqb_spec q "") as [->|Q].
      - exists no_answer. unfold route_query. cbn. split; [reflexivity|]. split; [reflexivity|]. intros X. contradiction.
      - destruct (query_ok I srt noise md sc emb em rt q A N C Q) as (a & Ea & R). exists a. rewrite E1, E2 in R. split; [exact Ea|]. split; [intros; contradiction|auto]. }
    destruct X as (a & Ea & Xa). unfold rstep in K. cbn [op_call op_emb] in K. destruct (route_query I srt noise md sc em rt q) as [rt1 res]. cbn [fst snd] in *. subst res.
    destruct K as [K1 K2]. destruct (IH rt1) as (l & El & Fl); [congruence|exact C'|congruence|congruence|].
    destruct (route_batch I srt noise md sc em rt1 qs) as [rt2 out]. cbn [snd] in *. subst out. cbn [bind]. exists (a :: l). split; [reflexivity|].
    constructor; auto. rewrite <- S1. exact Fl. }
  destruct (run_config I srt noise md sc (new_router I thr sim caching) ops) as [C1 C2]. fold rt0 in C1, C2.
  destruct (G qs rt0) as (l & El & Fl); auto.
  - apply run_store. reflexivity.
  - apply run_cache; auto. constructor.
  - exists l. split; [exact (run_registered I srt noise md sc (new_router I thr sim caching) ops)|]. auto.
Qed.
Print Assumptions route_batch_exact.

(** With a similarity whose values are not positive, such as the negated Euclidean
    distance offered by the configuration, nothing is ever routed: even an utterance
    repeated word for word, whose score 0 reaches the threshold. *)
Theorem route_euclidean_refuted :
  let rt := rrun list_index (isort by_score) no_noise Linear cosine_scorer (new_router list_index (f64_of_Z (-1)) euclidean true)
    [call (CAdd (Some greet))] in
  fge (euclidean (emb_of "hello") (emb_of "hello")) (ro_threshold _ rt) = true /\
  plain_query steady rt "hello" = Ok no_answer.
Proof. split; vm_compute; reflexivity. Qed.

(** One failure of the embedder while a route is first compared disables the route for
    good, although the embedder works again. *)
Theorem route_after_failure_refuted :
  let rt := plain_run cosine [call (CAdd (Some greet)); call_with flaky (CRoute "hi")] in
  list_routes _ rt = ["greet"] /\ answers emb_of steady /\
  plain_query steady rt "hello" = Ok no_answer /\
  plain_query steady (plain_run cosine [call (CAdd (Some greet))]) "hello"
    = Ok {| an_name := "greet"; an_score := f64_of_Z 1; an_matched := true; an_handler := Some 7%Z |}.
Proof.
  split; [vm_compute; reflexivity|]. split; [exact steady_answers|]. split; vm_compute; reflexivity.
Qed.

(** A router backed by a store compares only the utterance stored last. *)
Theorem route_with_store_refuted :
  let rt := backed_run [call (CAdd (Some greet))] in
  list_routes _ rt = ["greet"] /\
  (exists a, plain_query steady rt "hello" = Ok a /\ an_name a = "greet" /\ flt (an_score a) (f64_of_Z 1) = true) /\
  cosine (emb_of "hello") (emb_of "hello") = f64_of_Z 1.
Proof.
  split; [vm_compute; reflexivity|]. split; [|vm_compute; reflexivity].
  eexists. split; [vm_compute; reflexivity|]. split; vm_compute; reflexivity.
Qed.

(** ** C56 *)
(** Whatever routes were added, reopening a router on the store finds at most one
    route, with a single utterance. *)
Theorem router_reopen_at_most_one :
  forall I srt noise md sc rt s0 ops s ord em thr sim caching rt',
  sort_ok by_score srt -> (forall l, Permutation l (ord l)) ->
  ro_store I rt = Some s0 -> reachable I fk_env s0 ->
  (forall r, In r (t_rows (st_db I s0)) -> coll_name (st_db I s0) (r_coll r) <> routes_coll) ->
  fk_calls ops -> ro_store I (rrun I srt noise md sc rt ops) = Some s ->
  new_router_with_store I srt noise md sc ord em thr sim caching s = Ok rt' ->
  routes_of rt' = [] \/
  exists r u, handed ops r /\ In u (rt_utts r) /\ routes_of rt' = [{| rt_name := rt_name r; rt_utts := [u]; rt_handler := None |}].
Proof.
  intros I srt noise md sc rt s0 ops s ord em thr sim caching rt' H O E R C F S0 L.
  assert (G0 : good_store I (handed ops) s0) by (split; [exact R|intros r Hr Hc; destruct (C r Hr Hc)]).
  destruct (good_run I srt noise md sc (handed ops) rt ops s0 E G0 F (fun r h => h)) as (s' & E' & G'). rewrite S0 in E'. injection E' as <-.
  unfold new_router_with_store in L. destruct (load_routes I srt noise md sc ord em s) as [es| |] eqn:LR; cbn [bind] in L; try discriminate. injection L as <-.
  destruct (load_at_most_one I srt noise md sc H (handed ops) ord em s es G' O LR) as [->|(r & u & X & Y & ->)]; [left; reflexivity|].
  right. exists r, u. auto.
Qed.
Print Assumptions router_reopen_at_most_one.
Example router_reopen_ex :
  fk_calls [call (CAddBatch [Some leave; Some greet])] /\ reachable list_index fk_env (filled []) /\
  reopened [call (CAddBatch [Some leave; Some greet])] = Ok [("greet", ["hi"])].
Proof. split; [intros o [<-|[]] n; reflexivity|]. split; [apply filled_reachable|vm_compute; reflexivity]. Qed.

(** Two routes with three utterances are added; one utterance comes back. *)
Theorem router_reopen_refuted :
  let ops := [call (CAdd (Some leave)); call (CAdd (Some greet))] in
  list_routes _ (backed_run ops) = ["leave"; "greet"] /\
  snd (rstep list_index (isort by_score) no_noise Linear cosine_scorer (backed_run [call (CAdd (Some leave))]) (call (CAdd (Some greet)))) = Ok tt /\
  reopened ops = Ok [("greet", ["hi"])].
Proof. split; [|split]; vm_compute; reflexivity. Qed.

(** A removed route comes back. *)
Theorem router_remove_refuted :
  let ops := [call (CAdd (Some greet)); call (CRemove "greet")] in
  list_routes _ (backed_run ops) = [] /\ reopened ops = Ok [("greet", ["hi"])].
Proof. split; vm_compute; reflexivity. Qed.

(** Add reports an error when the route cannot be stored, yet registers it: a second
    attempt is refused because the name exists. *)
Definition broken_env : env := {| ev_fk := true; ev_ok := fun _ => false; ev_noise := fun _ => f_zero |}.
Theorem router_add_atomic_refuted :
  let bad := {| op_call := CAdd (Some greet); op_emb := steady; op_evs := fun _ => broken_env |} in
  let step := rstep list_index (isort by_score) no_noise Linear cosine_scorer in
  snd (step backed bad) = Err EOther /\ list_routes _ (fst (step backed bad)) = ["greet"] /\
  snd (step (fst (step backed bad)) (call (CAdd (Some greet)))) = Err EOther.
Proof. split; [|split]; vm_compute; reflexivity. Qed.

(** A single utterance is restored: the route's name and text, not its handler. *)
Theorem router_reopen_single_partial :
  forall I srt noise sc rt s0 r u v ord thr sim caching em evs,
  sort_ok by_score srt -> (forall l, Permutation l (ord l)) ->
  ro_entries I rt = [] -> ro_store I rt = Some s0 -> reachable I fk_env s0 -> st_closed I s0 = false -> t_rows (st_db I s0) = [] ->
  (forall n, evs n = good_env) ->
  rt_name r <> "" -> rt_utts r = [u] -> embed_vectors em [u] = Ok [v] -> (exists blob, encode_vector (Some v) = Ok blob) ->
  (0 < em_dim em)%Z -> (st_dim I s0 = 0 \/ st_dim I s0 = em_dim em)%Z ->
  exists rt1 s1 rt2,
    add I evs em rt (Some r) = (rt1, Ok tt) /\ ro_store I rt1 = Some s1 /\
    new_router_with_store I srt noise Linear sc ord em thr sim caching s1 = Ok rt2 /\
    routes_of rt2 = [{| rt_name := rt_name r; rt_utts := [u]; rt_handler := None |}].
Proof.
  intros I srt noise sc rt s0 r u v ord thr sim caching em evs HS HO HE HSt HR HC HRows HEv HN HU HV [blob HB] HD HDim.
  unfold add. rewrite HE, HSt. unfold acceptable_route. rewrite (proj2 (String.eqb_neq _ _) HN), HU. cbn [has_route existsb negb andb].
  unfold persist. rewrite HU, HV. cbn [length Nat.ltb Nat.leb List.combine map fst snd].
  (* the collection *)
  assert (CC : exists c, fst (create_collection I (evs 0) s0 routes_coll (em_dim em)) = with_db I s0 (st_db I (fst (create_collection I (evs 0) s0 routes_coll (em_dim em)))) /\
     find_coll (st_db I (fst (create_collection I (evs 0) s0 routes_coll (em_dim em)))) routes_coll = Some c /\
     t_rows (st_db I (fst (create_collection I (evs 0) s0 routes_coll (em_dim em)))) = []).
  { unfold create_collection. rewrite HC. destruct (find_coll (st_db I s0) routes_coll) as [c|] eqn:F.
    - exists c. cbn. split; [destruct s0; reflexivity|]. auto.
    - rewrite HEv. replace (Z.ltb (em_dim em) 0) with false by (symmetry; apply Z.ltb_ge; lia). cbn.
      eexists. split; [reflexivity|]. split; [|exact HRows]. unfold find_coll in *. cbn. clear -F. induction (t_colls (st_db I s0)) as [|a l IH]; cbn in *.
      + reflexivity.
      + destruct (String.eqb (c_name a) routes_coll); [discriminate|auto]. }
  destruct CC as (c & E1 & E2 & E3). set (s1 := fst (create_collection I (evs 0) s0 routes_coll (em_dim em))) in *.
  assert (R1 : reachable I fk_env s1).
  { pose proof (reach_step I fk_env s0 (evs 0) (OCreateColl routes_coll (em_dim em)) HR) as R. rewrite HEv in R. specialize (R eq_refl). cbn [step] in R.
    unfold s1. rewrite HEv. destruct (create_collection I good_env s0 routes_coll (em_dim em)). exact R. }
  assert (C1 : st_closed I s1 = false) by (rewrite E1; exact HC).
  assert (D1 : st_dim I s1 = st_dim I s0) by (rewrite E1; reflexivity).
  clearbody s1. clear E1.
  assert (UB : exists s2, upsert_batch I (evs 1) s1 [utterance_embedding r u v] = (s2, Ok tt) /\ st_db I s2 = with_rows (st_db I s1) [make_row (utterance_embedding r u v) (c_id c) blob] /\
      st_closed I s2 = false /\ st_dim I s2 = st_dim I s1).
  { rewrite HEv. unfold upsert_batch. rewrite C1. cbn [good_env ev_ok negb]. cbn [batch_rows]. unfold resolve_coll. cbn [utterance_embedding e_collid e_coll e_vec Z.eqb].
    change (String.eqb routes_coll "") with false. cbn [bind]. rewrite E2. cbn [bind]. rewrite HB. cbn [bind ev_ok good_env].
    unfold insert_row. cbn [ev_fk good_env andb].
    replace (fk_ok (st_db I s1) (make_row (utterance_embedding r u v) (c_id c) blob)) with true.
    - cbn [negb]. rewrite E3. eexists. split; [reflexivity|]. cbn. auto.
    - symmetry. unfold fk_ok. cbn. rewrite andb_true_r. apply existsb_exists. exists c. apply find_some in E2 as [Hin _]. split; [exact Hin|apply Z.eqb_refl]. }
  destruct UB as (s2 & U1 & U2 & U3 & U4). rewrite U1. eexists. exists s2. 
  assert (R2 : reachable I fk_env s2).
  { pose proof (reach_step I fk_env s1 (evs 1) (OUpsertBatch [utterance_embedding r u v]) R1) as R. rewrite HEv in R, U1. specialize (R eq_refl). cbn [step] in R. rewrite U1 in R. exact R. }
  assert (CN : coll_name (st_db I s2) (c_id c) = routes_coll).
  { assert (F2 : find_coll (st_db I s2) routes_coll = Some c) by (rewrite U2; exact E2).
    pose proof (coll_of_name (st_db I s2) (make_row (utterance_embedding r u v) (c_id c) blob) routes_coll c (reachable_colls I fk_env s2 R2) ltac:(discriminate) F2) as K.
    apply K. cbn. apply Z.eqb_refl. }
  assert (W : exists w, decode_vector blob = Ok w) by exact (encode_decodes _ _ HB). destruct W as [w W].
  assert (LC : existsb (fun c0 => String.eqb (c_name c0) routes_coll) (t_colls (st_db I s2)) = true).
  { apply existsb_exists. exists c. rewrite U2. cbn. apply find_some in E2. exact E2. }
  set (res := map (fun e => (e, score sc (route_opts [] 10000) (zeros (em_dim em)) e)) [ {| e_id := ""; e_collid := 0; e_coll := routes_coll; e_vec := Some w; e_content := u; e_doc := "";
       e_meta := Some [("route_name", rt_name r)]; e_acl := [] |} ]).
  assert (FC : fetch_candidates (st_db I s2) (route_opts [] 10000) = [ {| e_id := ""; e_collid := 0; e_coll := routes_coll; e_vec := Some w; e_content := u; e_doc := "";
       e_meta := Some [("route_name", rt_name r)]; e_acl := [] |} ]).
  { unfold fetch_candidates. replace (t_rows (st_db I s2)) with [make_row (utterance_embedding r u v) (c_id c) blob] by (rewrite U2; reflexivity).
    assert (WO : where_ok (st_db I s2) (route_opts [] 10000) (make_row (utterance_embedding r u v) (c_id c) blob) = true).
    { unfold where_ok. cbn [o_coll route_opts o_filter forallb]. change (String.eqb routes_coll "") with false. cbn [orb]. 
      replace (find_coll (st_db I s2) routes_coll) with (Some c) by (rewrite U2; symmetry; exact E2). cbn. rewrite Z.eqb_refl. reflexivity. }
    cbn [filter]. rewrite WO. cbn [map]. unfold scan_search. cbn [r_blob make_row]. rewrite W. cbn [bind oks flat_map app filter].
    cbn [r_id r_coll r_content r_doc r_meta make_row utterance_embedding e_id e_content e_doc e_meta]. rewrite CN. reflexivity. }
  assert (SE : search I srt noise Linear sc s2 (Some (zeros (em_dim em))) (route_opts [] 10000) = Ok res).
  { rewrite search_ok; [|exact U3| |].
    - f_equal. cbn [search_core]. unfold search_linear. rewrite FC. unfold score_candidates. fold res.
      cbn [o_threshold route_opts]. change (fgt f_zero f_zero) with false.
      assert (P1 : srt res = res) by (pose proof (proj1 (HS res)) as P; unfold res in *; cbn [map] in *; exact (Permutation_length_1_inv P)).
      match goal with |- firstn ?n (srt ?x) = _ => change x with res; replace n with (S (pred n)) end; [rewrite P1; reflexivity|]. unfold topk_of. cbn. lia.
    - apply validate_iff. exists (zeros (em_dim em)). split; [reflexivity|]. unfold zeros. split; [destruct (Z.to_nat (em_dim em)) eqn:Z0; [lia|discriminate]|].
      apply Forall_forall. intros x Hx. apply repeat_spec in Hx. subst x. split; [vm_compute; discriminate|intros s; vm_compute; discriminate].
    - unfold zeros. rewrite repeat_length, Z2Nat.id by lia. rewrite U4, D1. exact HDim. }
  eexists. split; [reflexivity|]. split; [reflexivity|]. split.
  - unfold new_router_with_store, load_routes, list_collections. rewrite U3, LC. cbn [negb]. rewrite SE. cbn [bind]. reflexivity.
  - unfold routes_of. cbn [ro_entries]. rewrite map_map. cbn [en_route new_entry]. rewrite map_id.
    unfold res, group_results. cbn [map fold_left fst e_meta e_content]. unfold meta_get. cbn [assoc]. change (String.eqb "route_name" "route_name") with true. cbn iota beta.
    rewrite (proj2 (String.eqb_neq _ _) HN). cbn [group_in]. apply Permutation_length_1_inv. apply HO.
Qed.
Print Assumptions router_reopen_single_partial.
Example router_reopen_single_ex : reopened [call (CAdd (Some leave))] = Ok [("leave", ["bye"])].
Proof. vm_compute. reflexivity. Qed.
