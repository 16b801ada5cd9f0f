(** What the theorems on the agent memory are stated in terms of. *)
From Coq Require Import String Ascii List NArith ZArith Bool Permutation.
From Coq Require Import Floats.SpecFloat.
From Verif Require Import Base Floats64 TopK EncodingModel DimensionModel StoreModel SearchModel AdvSearchModel GraphModel ChatModel ChatSpec RagModel HindModel.
Import ListNotations.
Open Scope string_scope.
Open Scope list_scope.
Open Scope nat_scope.

(** *** What was retained *)
(** The memory a Retain call stands for: a missing id is the new UUID, a missing time the
    time of the call. *)
Definition as_retained (ev : henv) (m : memory) : memory :=
  {| hm_id := if String.eqb (hm_id m) "" then he_uuid ev else hm_id m; hm_bank := hm_bank m; hm_type := hm_type m; hm_content := hm_content m;
     hm_vec := hm_vec m; hm_ents := hm_ents m; hm_conf := hm_conf m; hm_meta := hm_meta m;
     hm_time := Some (match hm_time m with Some t => t | None => he_now ev end) |}.
(** A fact as a memory of a bank. *)
Definition of_bank (b : string) (f : memory) : memory :=
  {| hm_id := hm_id f; hm_bank := b; hm_type := hm_type f; hm_content := hm_content f; hm_vec := hm_vec f; hm_ents := hm_ents f;
     hm_conf := hm_conf f; hm_meta := hm_meta f; hm_time := None |}.
Definition usable (f : memory) : Prop := hm_id f <> "" /\ exists x v, hm_vec f = Some (x :: v).
Definition usable_b (f : memory) : bool := negb (String.eqb (hm_id f) "") && match hm_vec f with Some (_ :: _) => true | _ => false end.

Section S.
Variable I : index_ops.
Variable F : formats.
(** The memories of the successful calls of a history, in order. *)
Definition kept_one (ev : henv) (y : sys I) (m : memory) : list memory :=
  match snd (retain I F ev y m) with Ok _ => [as_retained ev m] | _ => [] end.
Fixpoint kept_facts (ev : nat -> henv) (y : sys I) (b : string) (fs : list memory) : list memory :=
  match fs with
  | [] => []
  | f :: fs' => if usable_b f
                then kept_one (ev 0) y (of_bank b f) ++ kept_facts (fun i => ev (S i)) (fst (retain I F (ev 0) y (of_bank b f))) b fs'
                else kept_facts (fun i => ev (S i)) y b fs'
  end.
Fixpoint retained (y : sys I) (h : list ((nat -> henv) * hop I)) : list memory :=
  match h with
  | [] => []
  | (ev, o) :: h' =>
      match o with
      | HRetain _ m => kept_one (ev 0) y m
      | HFacts _ b fs => kept_facts ev y b fs
      | _ => []
      end ++ retained (hstep I F ev y o) h'
  end.
End S.
(** The last memory with an id. *)
Fixpoint last_memory (id : string) (l : list memory) : option memory :=
  match l with
  | [] => None
  | m :: l' => match last_memory id l' with Some x => Some x | None => if String.eqb (hm_id m) id then Some m else None end
  end.
(** The keys Retain uses itself. *)
Definition reserved : list string := ["bank_id"; "memory_type"; "created_at"; "confidence"; "entities"].
Definition no_comma (s : string) : Prop := forall a b, s <> (a ++ "," ++ b)%string.
(** [x] occurs in [s]. *)
Definition occurs (x s : string) : Prop := exists a b, s = (a ++ x ++ b)%string.

(** *** Recall *)
Definition strategy_used (q : request) : strategy := match q_strategy q with Some sg => sg | None => default_strategy end.
(** The strategies a request asks for. *)
Definition asked (q : request) (st : strat) : Prop :=
  match st with
  | Semantic => sg_memory (strategy_used q) = true /\ q_vec q <> None
  | Keyword => sg_priming (strategy_used q) = true /\ q_query q <> ""
  | Temporal => sg_temporal (strategy_used q) <> None
  | Entity => sg_entity (strategy_used q) <> []
  end.
(** The limit of each strategy: its own, else the request's, else ten. *)
Inductive per_strategy (q : request) : Z -> Prop :=
| per_own : sg_topk (strategy_used q) <> 0%Z -> per_strategy q (sg_topk (strategy_used q))
| per_request : sg_topk (strategy_used q) = 0%Z -> q_topk q <> 0%Z -> per_strategy q (q_topk q)
| per_ten : sg_topk (strategy_used q) = 0%Z -> q_topk q = 0%Z -> per_strategy q 10.
(** The options of the searches: the collection "memories", the bank. *)
Definition bank_options (q : request) (k : Z) (w : float) (text : string) : sopts :=
  {| o_coll := "memories"; o_topk := k; o_filter := [("bank_id", q_bank q)]; o_threshold := S754_zero false; o_textw := w; o_qtext := text |}.
Definition listed {A} (r : outcome (list A)) (l : list A) : Prop := r = Ok l \/ (l = [] /\ forall x, r <> Ok x).
(** A time in seconds lies within the limits, in nanoseconds. *)
Definition within (tf : option Z * option Z) (t : Z) : Prop :=
  (forall a, fst tf = Some a -> (a <= t * 1000000000)%Z) /\ (forall b, snd tf = Some b -> (t * 1000000000 <= b)%Z).
Definition as_found (F : formats) (now : Z) (st : strat) (x : embedding * float) (r : recalled) : Prop :=
  re_mem r = to_memory F now (fst x) /\ re_score r = snd x /\ re_strat r = st.
Section A.
Variable I : index_ops.
Variable F : formats.
Variable E : engine.
Variable now : Z.
Definition searched (st : strat) (i : nat) (s : store I) (v : list N) (o : sopts) (l : list (embedding * float)) : Prop :=
  listed (search I (en_srt E) (en_noise E st i) (en_mode E) (en_sc E) s (Some v) o) l.
(** The answer of one strategy. *)
Inductive answer (s : store I) (q : request) : strat -> list recalled -> Prop :=
| an_semantic v k found l : q_vec q = Some v -> per_strategy q k -> searched Semantic 0 s v (bank_options q k (S754_zero false) "") found ->
    Forall2 (as_found F now Semantic) found l -> answer s q Semantic l
| an_keyword v k found l : q_vec q = Some v -> per_strategy q k ->
    listed (hybrid_search I (en_srt E) (en_shuffle E) (en_noise E Keyword 0) (en_mode E) (en_sc E) (en_fts E) s v (q_query q)
              (bank_options q k (f64_div (f64_of_Z 7) (f64_of_Z 10)) (q_query q)) (f64_of_Z 60)) found ->
    Forall2 (as_found F now Keyword) found l -> answer s q Keyword l
| an_text k found l : q_vec q = None -> per_strategy q k -> searched Keyword 0 s [0%N] (bank_options q k (f64_of_Z 1) (q_query q)) found ->
    Forall2 (as_found F now Keyword) found l -> answer s q Keyword l
| an_temporal v k found tf (keep : embedding * float -> bool) l : q_vec q = Some v -> per_strategy q k -> sg_temporal (strategy_used q) = Some tf ->
    searched Temporal 0 s v (bank_options q (k * 5) (S754_zero false) "") found ->
    (forall x t, In x found -> hm_time (to_memory F now (fst x)) = Some t -> (keep x = true <-> within tf t)) ->
    Forall2 (as_found F now Temporal) (filter keep found) l -> answer s q Temporal l
| an_temporal_none : q_vec q = None -> answer s q Temporal []
| an_entity v k (found : nat -> list (embedding * float)) out l : q_vec q = Some v -> per_strategy q k ->
    (forall i, i < length (sg_entity (strategy_used q)) -> searched Entity i s v (bank_options q k (S754_zero false) "") (found i)) ->
    NoDup (map (fun x => e_id (fst x)) out) ->
    (forall x, In x out -> exists i name m t, nth_error (sg_entity (strategy_used q)) i = Some name /\ In x (found i) /\
                             e_meta (fst x) = Some m /\ assoc "entities" m = Some t /\ occurs name t) ->
    (forall i name x m t, nth_error (sg_entity (strategy_used q)) i = Some name -> In x (found i) ->
                             e_meta (fst x) = Some m -> assoc "entities" m = Some t -> occurs name t -> In (e_id (fst x)) (map (fun x => e_id (fst x)) out)) ->
    Forall2 (as_found F now Entity) out l -> answer s q Entity l
| an_entity_none : q_vec q = None -> answer s q Entity [].
End A.

(** [n] is the (last) place of an id in a list, counted from 1. *)
Definition place (id : string) (l : list recalled) (n : nat) : Prop :=
  (exists k, n = S k /\ nth_error (map (fun r => hm_id (re_mem r)) l) k = Some id) /\
  forall k, n <= k -> nth_error (map (fun r => hm_id (re_mem r)) l) k <> Some id.
(** The fused score: the sum, in some order, of 1/(60+place) over the strategies that found
    the memory. *)
Definition fused_score (parts : list (strat * list recalled)) (id : string) (x : float) : Prop :=
  exists sel : list (strat * nat), sel <> [] /\ NoDup (map fst sel) /\
    (forall st n, In (st, n) sel <-> exists l, In (st, l) parts /\ place id l n) /\
    x = fold_left (fun a (p : strat * nat) => f64_add a (f64_div (f64_of_Z 1) (f64_add (f64_of_Z 60) (f64_of_Z (Z.of_nat (snd p)))))) sel (S754_zero false).
Definition higher (a b : recalled) : bool := flt (re_score b) (re_score a).
Definition cut (k : Z) (l : list recalled) : nat := if Z.ltb 0 k then Z.to_nat k else length l.
(** The oracles only reorder. *)
Definition fair (R : race) : Prop :=
  (forall l, Permutation l (ra_blocks R l)) /\ (forall l, Permutation l (ra_strats R l)) /\ (forall id l, Permutation l (ra_ranks R id l)) /\ (forall l, Permutation l (ra_ids R l)).
(** A reranker that only reorders or drops. *)
Definition honest (rr : option (string -> list recalled -> option (list recalled))) : Prop :=
  forall f q l l', rr = Some f -> f q l = Some l' -> incl l' l.
(** No keyword query runs: the strategy is off, the query empty, or there is no vector. *)
Definition no_hybrid (q : request) : Prop := sg_priming (strategy_used q) = false \/ q_query q = "" \/ q_vec q = None.
(** A new system. *)
Definition new_system (I : index_ops) (y : sys I) : Prop := exists c dim p ev i, open_sys I c dim p ev empty_db {| g_nodes := []; g_edges := [] |} i = Ok y.

(** *** Banks *)
(** Calls that do not concern a bank: no entity has its id, no other bank with the id is
    created, it is not deleted. *)
Definition spares (I : index_ops) (id : string) (o : hop I) : Prop :=
  match o with
  | HRetain _ m => ~ In id (hm_ents m)
  | HFacts _ _ fs => forall f, In f fs -> ~ In id (hm_ents f)
  | HCreateBank _ _ b => b_id b <> id
  | HDeleteBank _ id' => id' <> id
  | HRestart _ _ _ _ _ => True
  end.

(** *** Auto-retain *)
Definition counts (cfg : auto) (m : message) : bool :=
  negb (String.eqb (g_session m) "") && match au_roles cfg with [] => true | l => existsb (String.eqb (g_role m)) l end.
(** A configuration as SetAutoRetain leaves it, switched on. *)
Definition active (cfg : auto) : Prop := au_on cfg = true /\ (0 < au_every cfg)%Z /\ (0 < au_window cfg)%Z.
Definition calls (h : list (cenv * message)) : list (cenv * cop) := map (fun p => (fst p, CAdd (snd p))) h.
