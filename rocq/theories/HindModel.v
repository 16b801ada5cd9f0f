(** Model of /repo/pkg/hindsight: Retain, Recall with its four strategies and their fusion,
    Reflect, memory banks, observations (hindsight.go), RetainFromText and auto-retain
    (hooks.go, chat.go), on top of the models of the vector store, the graph tables and the
    chat tables. Times are whole seconds for memories and nanoseconds for the limits of a
    temporal filter. Metadata values are the texts that "%v" prints. The strategies of one
    Recall all see the same store: writes between them are not modelled. *)
From Coq Require Import String Ascii List NArith ZArith Bool.
From Coq Require Import Floats.SpecFloat.
From Verif Require Import Base Floats64 EncodingModel DimensionModel StoreModel SearchModel AdvSearchModel GraphModel ChatModel RagModel.
Import ListNotations.
Open Scope string_scope.
Open Scope list_scope.
Open Scope nat_scope.

(** Memory, types.go:28-55. [hm_time = None] is the zero time, [hm_meta] the additional
    metadata. *)
Record memory := {
  hm_id : string; hm_bank : string; hm_type : string; hm_content : string; hm_vec : option (list N);
  hm_ents : list string; hm_conf : float; hm_meta : smap; hm_time : option Z }.

(** metadata[k] = v. *)
Definition set_key (m : smap) (kv : string * string) : smap :=
  filter (fun x => negb (String.eqb (fst x) (fst kv))) m ++ [kv].

(** fmt's "%.4f", and Sscanf with "%d" and "%f" (0 when nothing is scanned). *)
Record formats := { ft_conf : float -> string; ft_scan_d : string -> Z; ft_scan_f : string -> float }.

(** buildMetadata, hindsight.go:185-209. *)
Definition build_metadata (F : formats) (m : memory) (t : Z) : smap :=
  fold_left set_key (hm_meta m)
    ([("bank_id", hm_bank m); ("memory_type", hm_type m); ("created_at", fmt_d t)] ++
     (if String.eqb (hm_type m) "opinion" || String.eqb (hm_type m) "observation" then [("confidence", ft_conf F (hm_conf m))] else []) ++
     (match hm_ents m with [] => [] | l => [("entities", String.concat "," l)] end)).

(** strings.Contains and strings.Split(_, ","). *)
Fixpoint contains (sub s : string) : bool :=
  String.prefix sub s || match s with EmptyString => false | String _ s' => contains sub s' end.
Fixpoint split_comma (s : string) : list string :=
  match s with
  | EmptyString => [""]
  | String c s' => if Ascii.eqb c "," then "" :: split_comma s'
                   else match split_comma s' with w :: ws => String c w :: ws | [] => [String c ""] end
  end.

(** scoredEmbeddingToMemory, hindsight.go:605-640: the additional metadata is not
    returned. *)
Definition meta_of (e : embedding) (k : string) : option string := match e_meta e with Some m => assoc k m | None => None end.
Definition to_memory (F : formats) (now : Z) (e : embedding) : memory :=
  {| hm_id := e_id e; hm_bank := match meta_of e "bank_id" with Some b => b | None => "" end;
     hm_type := match meta_of e "memory_type" with Some b => b | None => "" end;
     hm_content := e_content e; hm_vec := e_vec e;
     hm_ents := match meta_of e "entities" with Some x => if String.eqb x "" then [] else split_comma x | None => [] end;
     hm_conf := match meta_of e "confidence" with Some x => ft_scan_f F x | None => f_zero end;
     hm_meta := [];
     hm_time := Some (match meta_of e "created_at" with Some x => ft_scan_d F x | None => now end) |}.

(** Bank, bank.go (without the creation time). *)
Record bank := { b_id : string; b_name : string; b_descr : string; b_background : string; b_skepticism : Z; b_literalism : Z; b_empathy : Z }.

(** The system: the store, the graph tables and the banks in memory. *)
Record sys (I : index_ops) := { sy_store : store I; sy_graph : gdb; sy_banks : list bank }.
Arguments sy_store {I}. Arguments sy_graph {I}. Arguments sy_banks {I}.
(** What one call meets: the statements of the store and of the graph, a new UUID, the
    clock. *)
Record henv := { he_store : env; he_graph : nat -> env; he_uuid : string; he_now : Z }.

Section Hind.
Variable I : index_ops.
Variable F : formats.

(** The embedding Retain stores, hindsight.go:139-169; the collection is always
    "memories", hindsight.go:180-182. *)
Definition stamped (ev : henv) (m : memory) : memory :=
  {| hm_id := if String.eqb (hm_id m) "" then he_uuid ev else hm_id m; hm_bank := hm_bank m; hm_type := hm_type m; hm_content := hm_content m;
     hm_vec := hm_vec m; hm_ents := hm_ents m; hm_conf := hm_conf m; hm_meta := hm_meta m;
     hm_time := Some (match hm_time m with Some t => t | None => he_now ev end) |}.
Definition embedding_of (m : memory) : embedding :=
  {| e_id := hm_id m; e_collid := 0; e_coll := "memories"; e_vec := hm_vec m; e_content := hm_content m; e_doc := "";
     e_meta := Some (build_metadata F m (match hm_time m with Some t => t | None => 0%Z end)); e_acl := [] |}.
(** The entity nodes, hindsight.go:150-160; failures are ignored. *)
Definition entity_node (x : string) : GraphModel.gnode :=
  {| GraphModel.n_id := x; n_vec := [0%N; 0%N; 0%N]; GraphModel.n_content := x; GraphModel.n_type := "entity"; n_props := None |}.
Fixpoint entity_nodes (evs : nat -> env) (g : gdb) (ents : list string) : gdb :=
  match ents with
  | [] => g
  | x :: l => entity_nodes (fun i => evs (S i)) (fst (upsert_node (evs 0) g (Some (entity_node x)))) l
  end.
(** Retain, hindsight.go:138-177. *)
Definition retain (ev : henv) (y : sys I) (m : memory) : sys I * outcome unit :=
  let g := entity_nodes (he_graph ev) (sy_graph y) (hm_ents m) in
  let (s, r) := upsert I (he_store ev) (sy_store y) (embedding_of (stamped ev m)) in
  ({| sy_store := s; sy_graph := g; sy_banks := sy_banks y |}, r).

(** *** Recall *)
(** RecallStrategy, types.go:59-74: the limits of the temporal filter are nanoseconds. *)
Record strategy := { sg_temporal : option (option Z * option Z); sg_entity : list string; sg_memory : bool; sg_priming : bool; sg_topk : Z }.
(** DefaultStrategy, types.go:77-85. *)
Definition default_strategy : strategy := {| sg_temporal := None; sg_entity := []; sg_memory := true; sg_priming := true; sg_topk := 10 |}.
(** RecallRequest, types.go:94-109; [q_vec = None] is a nil vector. *)
Record request := { q_bank : string; q_query : string; q_vec : option (list N); q_strategy : option strategy; q_topk : Z }.
Inductive strat := Semantic | Keyword | Temporal | Entity.
Definition strat_eqb (a b : strat) : bool :=
  match a, b with Semantic, Semantic | Keyword, Keyword | Temporal, Temporal | Entity, Entity => true | _, _ => false end.
(** RecallResult, types.go:112-116. *)
Record recalled := { re_mem : memory; re_score : float; re_strat : strat }.

(** The store's search engine: index mode, scoring, full-text index, sorting, map order in
    HybridSearch and the noise of query adaptation per strategy and call. *)
Record engine := {
  en_mode : mode; en_sc : scorer; en_fts : fts; en_srt : list (embedding * float) -> list (embedding * float);
  en_shuffle : list (embedding * float) -> list (embedding * float); en_noise : strat -> nat -> nat -> float }.
Variable E : engine.
Variable now : Z.

(** TopK of the strategies, hindsight.go:326-332, 361-367, 426-432, 485-491. *)
Definition strategy_topk (sg : strategy) (q : request) : Z :=
  if Z.eqb (sg_topk sg) 0 then (if Z.eqb (q_topk q) 0 then 10%Z else q_topk q) else sg_topk sg.
Definition bank_opts (q : request) (k : Z) (w : float) (text : string) : sopts :=
  {| o_coll := "memories"; o_topk := k; o_filter := [("bank_id", q_bank q)]; o_threshold := f_zero; o_textw := w; o_qtext := text |}.
Definition found (st : strat) (x : embedding * float) : recalled := {| re_mem := to_memory F now (fst x); re_score := snd x; re_strat := st |}.
(** An error gives no results. *)
Definition or_nothing {A} (r : outcome (list A)) : list A := match r with Ok l => l | _ => [] end.
Definition bank_search (st : strat) (i : nat) (s : store I) (q : request) (v : list N) (k : Z) (w : float) (text : string) : list (embedding * float) :=
  or_nothing (search I (en_srt E) (en_noise E st i) (en_mode E) (en_sc E) s (Some v) (bank_opts q k w text)).

(** semanticSearch, hindsight.go:325-357. *)
Definition semantic_search (s : store I) (q : request) (sg : strategy) (v : list N) : list recalled :=
  map (found Semantic) (bank_search Semantic 0 s q v (strategy_topk sg q) f_zero "").
(** keywordSearch, hindsight.go:360-417: 0.7 and 1.0 as text weights, a vector [0] when
    there is none. *)
Definition keyword_search (s : store I) (q : request) (sg : strategy) : list recalled :=
  map (found Keyword)
    (match q_vec q with
     | Some v => or_nothing (hybrid_search I (en_srt E) (en_shuffle E) (en_noise E Keyword 0) (en_mode E) (en_sc E) (en_fts E) s v (q_query q)
                               (bank_opts q (strategy_topk sg q) (dec 7 10) (q_query q)) (f64_of_Z 60))
     | None => bank_search Keyword 0 s q [0%N] (strategy_topk sg q) f_one (q_query q)
     end).
(** temporalSearch, hindsight.go:420-477. *)
Definition in_range (tf : option Z * option Z) (m : memory) : bool :=
  let t := (match hm_time m with Some t => t | None => 0 end * 1000000000)%Z in
  negb (match fst tf with Some a => Z.ltb t a | None => false end) && negb (match snd tf with Some b => Z.ltb b t | None => false end).
Definition temporal_search (s : store I) (q : request) (sg : strategy) (tf : option Z * option Z) : list recalled :=
  match q_vec q with
  | None => []
  | Some v => filter (fun r => in_range tf (re_mem r)) (map (found Temporal) (bank_search Temporal 0 s q v (strategy_topk sg q * 5) f_zero ""))
  end.
(** entitySearch, hindsight.go:480-540; [seen] holds the ids already found. *)
Definition tagged (x : string) (e : embedding) : bool := match meta_of e "entities" with Some l => contains x l | None => false end.
Fixpoint pick_entity (x : string) (l : list (embedding * float)) (seen : list string) : list (embedding * float) * list string :=
  match l with
  | [] => ([], seen)
  | p :: l' =>
      if negb (mem (e_id (fst p)) seen) && tagged x (fst p)
      then let (out, seen') := pick_entity x l' (e_id (fst p) :: seen) in (p :: out, seen')
      else pick_entity x l' seen
  end.
Fixpoint entity_loop (s : store I) (q : request) (sg : strategy) (v : list N) (i : nat) (xs : list string) (seen : list string) : list (embedding * float) :=
  match xs with
  | [] => []
  | x :: xs' =>
      let (out, seen') := pick_entity x (bank_search Entity i s q v (strategy_topk sg q) f_zero "") seen in
      out ++ entity_loop s q sg v (S i) xs' seen'
  end.
Definition entity_search (s : store I) (q : request) (sg : strategy) : list recalled :=
  match q_vec q with
  | None => []
  | Some v => map (found Entity) (entity_loop s q sg v 0 (sg_entity sg) [])
  end.

(** The enabled strategies, hindsight.go:222-285, with their answers. *)
Definition answers (s : store I) (q : request) (sg : strategy) : list (strat * list recalled) :=
  (match q_vec q with Some v => if sg_memory sg then [(Semantic, semantic_search s q sg v)] else [] | None => [] end) ++
  (if sg_priming sg && negb (String.eqb (q_query q) "") then [(Keyword, keyword_search s q sg)] else []) ++
  (match sg_temporal sg with Some tf => [(Temporal, temporal_search s q sg tf)] | None => [] end) ++
  (match sg_entity sg with [] => [] | _ => [(Entity, entity_search s q sg)] end).

(** What scheduling and map iteration decide: the order in which the strategies append
    their answers, and the orders of the three maps of rrfFuse. *)
Record race := {
  ra_blocks : list (strat * list recalled) -> list (strat * list recalled); ra_strats : list strat -> list strat;
  ra_ranks : string -> list nat -> list nat; ra_ids : list recalled -> list recalled }.
Variable R : race.

Definition re_id (r : recalled) : string := hm_id (re_mem r).
Definition re_better (a b : recalled) : bool := fgt (re_score a) (re_score b).
Definition set_re_score (r : recalled) (x : float) : recalled := {| re_mem := re_mem r; re_score := x; re_strat := re_strat r |}.
(** The strategies met, hindsight.go:557-560, each once. *)
Definition strats_of (l : list recalled) : list strat :=
  filter (fun st => existsb (fun r => strat_eqb (re_strat r) st) l) [Semantic; Keyword; Temporal; Entity].
(** ranks[id][strategy]: the last position of the id among the strategy's results, counted
    from 1, hindsight.go:563-568. *)
Fixpoint last_rank (id : string) (n : nat) (l : list recalled) : option nat :=
  match l with
  | [] => None
  | r :: l' => match last_rank id (S n) l' with
               | Some k => Some k
               | None => if String.eqb (re_id r) id then Some n else None
               end
  end.
(** byID: the first result met with each id, hindsight.go:570-573. *)
Fixpoint first_of_ids (seen : list string) (l : list recalled) : list recalled :=
  match l with
  | [] => []
  | r :: l' => if mem (re_id r) seen then first_of_ids seen l' else r :: first_of_ids (re_id r :: seen) l'
  end.
(** rrfFuse, hindsight.go:545-602. *)
Definition rrf_fuse (l : list recalled) : list recalled :=
  let groups := map (fun st => filter (fun r => strat_eqb (re_strat r) st) l) (ra_strats R (strats_of l)) in
  let kept := first_of_ids [] (concat groups) in
  let ranks id := flat_map (fun g => match last_rank id 1 g with Some n => [n] | None => [] end) groups in
  let total id := fold_left (fun a n => f64_add a (f64_div f_one (f64_add (f64_of_Z 60) (f64_of_Z (Z.of_nat n))))) (ra_ranks R id (ranks id)) f_zero in
  ex_sort re_better (ra_ids R (map (fun r => set_re_score r (total (re_id r))) kept)).

(** Recall, hindsight.go:212-322; [rr] is the reranker, [None] its failure. *)
Definition recall (rr : option (string -> list recalled -> option (list recalled))) (y : sys I) (q : request) : list recalled :=
  let sg := match q_strategy q with Some sg => sg | None => default_strategy end in
  let parts := answers (sy_store y) q sg in
  let all := flat_map snd (ra_blocks R parts) in
  let merged := if (1 <? length parts)%nat && negb (match all with [] => true | _ => false end) then rrf_fuse all else ex_sort re_better all in
  let reranked := match rr, merged with
                  | Some f, _ :: _ => if String.eqb (q_query q) "" then merged
                                      else match f (q_query q) merged with Some (x :: l) => x :: l | _ => merged end
                  | _, _ => merged
                  end in
  if Z.ltb 0 (q_topk q) then firstn (Z.to_nat (q_topk q)) reranked else reranked.

(** formatContext, hindsight.go:689-742: the sections, in order, of the known memory
    types; [f3] and [f2] print with "%.3f" and "%.2f". *)
Definition newline : string := String (ascii_of_nat 10) "".
Definition section (title : string) (line : recalled -> string) (l : list recalled) (last : string) : string :=
  (match l with [] => "" | _ => "## " ++ title ++ newline ++ String.concat "" (map line l) ++ last end)%string.
Definition of_type (t : string) (l : list recalled) : list recalled := filter (fun r => String.eqb (hm_type (re_mem r)) t) l.
Definition format_context (f3 f2 : float -> string) (query : string) (l : list recalled) : string :=
  (match l with
   | [] => "No relevant memories found."
   | _ => "# Relevant Memories for: " ++ query ++ newline ++ newline ++
          section "Facts" (fun r => "- " ++ hm_content (re_mem r) ++ " (score: " ++ f3 (re_score r) ++ ")" ++ newline) (of_type "world" l) newline ++
          section "Experiences" (fun r => "- " ++ hm_content (re_mem r) ++ newline) (of_type "bank" l) newline ++
          section "Insights" (fun r => "- " ++ hm_content (re_mem r) ++ " (confidence: " ++ f2 (hm_conf (re_mem r)) ++ ")" ++ newline) (of_type "observation" l) newline ++
          section "Beliefs" (fun r => "- " ++ hm_content (re_mem r) ++ " (confidence: " ++ f2 (hm_conf (re_mem r)) ++ ")" ++ newline) (of_type "opinion" l) ""
   end)%string.
(** Reflect, hindsight.go:644-686: [format] is formatContext. TokenBudget*4 is assumed not
    to overflow. *)
Definition reflect (format : list recalled -> string) (rr : option (string -> list recalled -> option (list recalled))) (y : sys I) (q : request) (budget : Z)
  : string * list memory * Z :=
  let results := recall rr y q in
  let text := format results in
  let n := (Z.of_nat (String.length text) / 4)%Z in
  if Z.ltb 0 budget && Z.ltb budget n then (String.substring 0 (Z.to_nat (budget * 4)) text, map re_mem results, budget)
  else (text, map re_mem results, n).

(** *** Banks *)
(** CreateBank, hindsight.go:745-789; [dim] is the dimension of the node's vector. *)
Definition bank_node (dim : nat) (b : bank) : GraphModel.gnode :=
  {| GraphModel.n_id := b_id b; n_vec := map (fun i => match i with O => 953267991%N | _ => 0%N end) (seq 0 dim);
     GraphModel.n_content := b_name b; GraphModel.n_type := "bank";
     n_props := Some [("background", b_background b); ("description", b_descr b); ("empathy", fmt_d (b_empathy b));
                      ("literalism", fmt_d (b_literalism b)); ("name", b_name b); ("skepticism", fmt_d (b_skepticism b))] |}.
Definition bank_is (id : string) (b : bank) : bool := String.eqb (b_id b) id.
Definition create_bank (dim : nat) (ev : henv) (y : sys I) (b : bank) : sys I * outcome unit :=
  if existsb (bank_is (b_id b)) (sy_banks y) then (y, Err EOther)
  else ({| sy_store := sy_store y; sy_graph := fst (upsert_node (he_graph ev 0) (sy_graph y) (Some (bank_node dim b))); sy_banks := sy_banks y ++ [b] |}, Ok tt).
(** A bank read from its node, hindsight.go:806-811, 1228-1233. *)
Definition node_bank (n : GraphModel.gnode) : bank :=
  {| b_id := GraphModel.n_id n; b_name := GraphModel.n_content n; b_descr := GraphModel.n_content n; b_background := ""; b_skepticism := 0; b_literalism := 0; b_empathy := 0 |}.
(** GetBank, hindsight.go:793-821. *)
Definition get_bank (y : sys I) (id : string) : sys I * option bank :=
  match find (bank_is id) (sy_banks y) with
  | Some b => (y, Some b)
  | None => match get_node (sy_graph y) id with
            | Ok n => if String.eqb (GraphModel.n_type n) "bank"
                      then ({| sy_store := sy_store y; sy_graph := sy_graph y; sy_banks := sy_banks y ++ [node_bank n] |}, Some (node_bank n))
                      else (y, None)
            | _ => (y, None)
            end
  end.
(** DeleteBank, hindsight.go:836-851. *)
Definition delete_bank (ev : henv) (y : sys I) (id : string) : sys I * outcome unit :=
  if existsb (bank_is id) (sy_banks y)
  then ({| sy_store := sy_store y; sy_graph := fst (delete_node (he_graph ev 0) (sy_graph y) id); sy_banks := filter (fun b => negb (bank_is id b)) (sy_banks y) |}, Ok tt)
  else (y, Err EOther).
(** loadPersistedBanks, hindsight.go:1217-1239. *)
Definition load_banks (g : gdb) : list bank := map node_bank (filter (fun n => String.eqb (GraphModel.n_type n) "bank") (g_nodes g)).
(** New on a database, hindsight.go:62-112: the collection of the configuration is created
    unless it exists. *)
Definition open_sys (collection : string) (dim : Z) (p : policy) (ev : henv) (d : db) (g : gdb) (i : ix I) : outcome (sys I) :=
  bind (open_store I dim p d i) (fun s =>
  let s' := match find_coll (st_db I s) collection with Some _ => s | None => fst (create_collection I (he_store ev) s collection dim) end in
  Ok {| sy_store := s'; sy_graph := g; sy_banks := load_banks g |}).

(** *** RetainFromText *)
(** The loop over the facts, hooks.go:268-294: retained, skipped, number of errors. [ev i]
    is what the i-th Retain meets. *)
Fixpoint retain_facts (ev : nat -> henv) (y : sys I) (bank : string) (facts : list memory) : sys I * (nat * nat * nat) :=
  match facts with
  | [] => (y, (0, 0, 0))
  | f :: fs =>
      let next := fun i => ev (S i) in
      if String.eqb (hm_id f) "" || match hm_vec f with Some (_ :: _) => false | _ => true end
      then let '(y', (a, b, c)) := retain_facts next y bank fs in (y', (a, S b, S c))
      else
        let m := {| hm_id := hm_id f; hm_bank := bank; hm_type := hm_type f; hm_content := hm_content f; hm_vec := hm_vec f; hm_ents := hm_ents f;
                    hm_conf := hm_conf f; hm_meta := hm_meta f; hm_time := None |} in
        match retain (ev 0) y m with
        | (y1, Ok _) => let '(y', (a, b, c)) := retain_facts next y1 bank fs in (y', (S a, b, c))
        | (y1, _) => let '(y', (a, b, c)) := retain_facts next y1 bank fs in (y', (a, b, S c))
        end
  end.
(** RetainFromText, hooks.go:248-296. [None] is no extractor, and its answer [None] an
    error. *)
Definition retain_from_text (extractor : option (string -> list message -> option (list memory))) (ev : nat -> henv) (y : sys I) (bank : string) (msgs : list message)
  : sys I * outcome (nat * nat * nat) :=
  match extractor with
  | None => (y, Err EInvalidConfig)
  | Some f =>
      if String.eqb bank "" then (y, Err EOther)
      else match msgs with
           | [] => (y, Ok (0, 0, 0))
           | _ => match f bank msgs with
                  | None => (y, Err EOther)
                  | Some facts => let (y', c) := retain_facts ev y bank facts in (y', Ok c)
                  end
           end
  end.

(** *** Observations *)
(** Observation, types.go:146-174. *)
Record observation := { ob_id : string; ob_bank : string; ob_content : string; ob_vec : option (list N); ob_sources : list string; ob_conf : float;
                        ob_type : string; ob_reasoning : string; ob_time : option Z }.
(** RetainObservation, hindsight.go:1081-1109. *)
Definition observation_memory (x : observation) : memory :=
  {| hm_id := ob_id x; hm_bank := ob_bank x; hm_type := "observation"; hm_content := ob_content x; hm_vec := ob_vec x; hm_ents := []; hm_conf := ob_conf x;
     hm_meta := [("source_memory_ids", String.concat "," (ob_sources x)); ("observation_type", ob_type x); ("reasoning", ob_reasoning x)]; hm_time := ob_time x |}.
Definition retain_observation (ev : henv) (y : sys I) (x : observation) : sys I * outcome unit := retain ev y (observation_memory x).
(** GetObservations, hindsight.go:1161-1214: the sources, the type and the reasoning are
    looked up in metadata that scoredEmbeddingToMemory leaves empty. *)
Definition read_observation (m : memory) : observation :=
  {| ob_id := hm_id m; ob_bank := hm_bank m; ob_content := hm_content m; ob_vec := hm_vec m;
     ob_sources := match assoc "source_memory_ids" (hm_meta m) with Some x => split_comma x | None => [] end; ob_conf := hm_conf m;
     ob_type := match assoc "observation_type" (hm_meta m) with Some x => x | None => "" end;
     ob_reasoning := match assoc "reasoning" (hm_meta m) with Some x => x | None => "" end; ob_time := hm_time m |}.
Definition get_observations (y : sys I) (bank : string) : outcome (list observation) :=
  bind (search I (en_srt E) (en_noise E Semantic 0) (en_mode E) (en_sc E) (sy_store y) (Some [0%N])
          {| o_coll := "memories"; o_topk := 100; o_filter := [("bank_id", bank); ("memory_type", "observation")]; o_threshold := f_zero; o_textw := f_zero; o_qtext := "" |})
    (fun l => Ok (map read_observation (filter (fun m => String.eqb (hm_type m) "observation") (map (fun x => to_memory F now (fst x)) l)))).
(** calculateConfidence, hindsight.go:1038-1069, of n memories under a bank's skepticism. *)
Definition confidence (n : nat) (skepticism : option Z) : float :=
  match n with
  | O => f_zero
  | _ =>
      let base := f64_div (f64_of_Z (Z.of_nat n)) (f64_of_Z 10) in
      let base := if fgt base (dec 9 10) then dec 9 10 else base in
      let base := match skepticism with
                  | Some k => let b := if Z.leb 4 k then f64_mul base (dec 8 10) else base in
                              if Z.leb k 2 then f64_mul b (dec 11 10) else b
                  | None => base
                  end in
      let base := if fgt base f_one then f_one else base in
      if flt base (dec 1 10) then dec 1 10 else base
  end.

(** *** Histories *)
Inductive hop := HRetain (m : memory) | HFacts (bank : string) (facts : list memory) | HCreateBank (dim : nat) (b : bank) | HDeleteBank (id : string)
               | HRestart (collection : string) (dim : Z) (p : policy) (i : ix I).
Definition hstep (ev : nat -> henv) (y : sys I) (o : hop) : sys I :=
  match o with
  | HRetain m => fst (retain (ev 0) y m)
  | HFacts b fs => fst (retain_facts ev y b fs)
  | HCreateBank k b => fst (create_bank k (ev 0) y b)
  | HDeleteBank id => fst (delete_bank (ev 0) y id)
  | HRestart c dim p i => match open_sys c dim p (ev 0) (st_db I (sy_store y)) (sy_graph y) i with Ok y' => y' | _ => y end
  end.
Definition hrun (y : sys I) (h : list ((nat -> henv) * hop)) : sys I := fold_left (fun y eo => hstep (fst eo) y (snd eo)) h y.
End Hind.

(** *** Auto-retain *)
(** AutoRetainConfig, hooks.go:138-156. *)
Record auto := { au_on : bool; au_window : Z; au_every : Z; au_roles : list string }.
(** What SetAutoRetain stores, hooks.go:213-232, and the counter. *)
Definition set_auto (cfg : option auto) (counter : Z) : auto * Z :=
  match cfg with
  | None => ({| au_on := false; au_window := 6; au_every := 2; au_roles := [] |}, counter)
  | Some a => ({| au_on := au_on a; au_window := if Z.leb (au_window a) 0 then 6 else au_window a;
                  au_every := if Z.leb (au_every a) 0 then 2 else au_every a; au_roles := au_roles a |}, if au_on a then 0%Z else counter)
  end.
(** roleMatches, chat.go:122-132. *)
Definition role_matches (role : string) (roles : list string) : bool := match roles with [] => true | _ => existsb (String.eqb role) roles end.
(** AddMessage, chat.go:51-76: the chat tables, the counter, and whether extraction
    fires; an extractor is registered. *)
Definition auto_add (cfg : auto) (ev : cenv) (st : chat * Z) (m : message) : (chat * Z) * bool * outcome unit :=
  match add_message ev (fst st) m with
  | (c, Ok _) =>
      if au_on cfg && negb (String.eqb (g_session m) "") && role_matches (g_role m) (au_roles cfg)
      then if Z.leb (au_every cfg) (snd st + 1) then ((c, 0%Z), true, Ok tt) else ((c, (snd st + 1)%Z), false, Ok tt)
      else ((c, snd st), false, Ok tt)
  | (c, r) => ((c, snd st), false, r)
  end.
(** The background extraction, chat.go:83-98: GetSessionHistory already answers oldest
    first; reverseMessages turns it around. *)
Definition window (srt : list mrow -> list mrow) (cfg : auto) (c : chat) (session : string) : option (list message) :=
  match session_history srt c session (au_window cfg) with
  | Ok [] => None
  | Ok l => Some (rev l)
  | _ => None
  end.
(** A sequence of AddMessage calls: the sessions whose extraction fired, in order, each
    with the chat tables at that moment. *)
Fixpoint auto_run (cfg : auto) (st : chat * Z) (h : list (cenv * message)) : (chat * Z) * list (string * chat) :=
  match h with
  | [] => (st, [])
  | (ev, m) :: h' =>
      let '(st1, fired, _) := auto_add cfg ev st m in
      let '(st2, fs) := auto_run cfg st1 h' in
      (st2, (if fired : bool then [(g_session m, fst st1)] else []) ++ fs)
  end.
