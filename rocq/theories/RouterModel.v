(** Model of /repo/pkg/semantic-router/router.go and embedder.go: the semantic router,
    with or without a store behind it, and the caching embedder.

    A router method runs under the router's lock, so a history is a list of calls.
    Each call meets its own embedder answers ([embedder] below): the embedder is user
    code and may fail at one call and succeed at the next; within one call it answers
    equal texts equally. A *Route registered twice by pointer, route metadata and
    statistics are not modelled. Handlers are opaque numbers. *)
From Coq Require Import String Ascii List NArith ZArith Bool.
From Verif Require Import Base Floats64 EncodingModel DimensionModel StoreModel SearchModel.
Import ListNotations.
Open Scope string_scope.
Open Scope list_scope.

(** Embedder, types.go:53-62: [None] is an error. *)
Record embedder := {
  em_one : string -> option (list N);
  em_batch : list string -> option (list (list N));
  em_dim : Z }.

(** Route, types.go:14-31. *)
Record route := { rt_name : string; rt_utts : list string; rt_handler : option Z }.

(** A registered route with its cachedVectors; [None]: cachedOnce has not run. *)
Record entry := { en_route : route; en_cache : option (list (list N)) }.
Definition new_entry (r : route) : entry := {| en_route := r; en_cache := None |}.

(** RouteResult, types.go:37-50. *)
Record answer := { an_name : string; an_score : float; an_matched : bool; an_handler : option Z }.
Definition no_answer : answer := {| an_name := ""; an_score := f_zero; an_matched := false; an_handler := None |}.

(** The individual calls of embedVectors, router.go:338-345. *)
Fixpoint embed_each (em : embedder) (utts : list string) : outcome (list (list N)) :=
  match utts with
  | [] => Ok []
  | u :: us => match em_one em u with
               | None => Err EOther
               | Some v => bind (embed_each em us) (fun vs => Ok (v :: vs))
               end
  end.

(** embedVectors, router.go:326-348. *)
Definition embed_vectors (em : embedder) (utts : list string) : outcome (list (list N)) :=
  match utts with
  | [] => Ok []
  | _ => match em_batch em utts with Some vs => Ok vs | None => embed_each em utts end
  end.

(** The duplicate check of Add and AddBatch, router.go:115-119. *)
Definition has_route (n : string) (es : list entry) : bool :=
  existsb (fun e => String.eqb (rt_name (en_route e)) n) es.

(** Add's and AddBatch's checks, router.go:101-119 and 141-155. *)
Definition acceptable_route (es : list entry) (r : route) : bool :=
  negb (String.eqb (rt_name r) "") &&
  negb (match rt_utts r with [] => true | _ => false end) &&
  negb (has_route (rt_name r) es).

(** The slice removal of Remove, router.go:176-179: the first route of that name. *)
Fixpoint drop_route (n : string) (es : list entry) : option (list entry) :=
  match es with
  | [] => None
  | e :: es' => if String.eqb (rt_name (en_route e)) n then Some es'
                else match drop_route n es' with Some l => Some (e :: l) | None => None end
  end.

Definition routes_coll : string := "semantic_routes".
Definition route_opts (f : smap) (k : Z) : sopts :=
  {| o_coll := routes_coll; o_topk := k; o_filter := f; o_threshold := f_zero; o_textw := f_zero; o_qtext := "" |}.

(** make([]float32, Dimensions()). *)
Definition zeros (n : Z) : list N := repeat 0%N (Z.to_nat n).

(** The embedding persistRoute builds for one utterance, router.go:364-373: its id is
    left empty. *)
Definition utterance_embedding (r : route) (u : string) (v : list N) : embedding :=
  {| e_id := ""; e_collid := 0; e_coll := routes_coll; e_vec := Some v; e_content := u; e_doc := "";
     e_meta := Some [("route_name", rt_name r)]; e_acl := [] |}.

Section Router.
Variable I : index_ops.
(** The store's configuration: sort, adaptation noise, index mode and scoring. *)
Variable srt : list scored -> list scored.
Variable noise : nat -> float.
Variable md : mode.
Variable sc : scorer.

(** Router and Config, router.go:12-18 and types.go:65-78 (TopK is never read). *)
Record router := {
  ro_entries : list entry; ro_threshold : float; ro_sim : list N -> list N -> float;
  ro_caching : bool; ro_store : option (store I) }.
Definition with_entries (rt : router) (es : list entry) : router :=
  {| ro_entries := es; ro_threshold := ro_threshold rt; ro_sim := ro_sim rt; ro_caching := ro_caching rt; ro_store := ro_store rt |}.
Definition with_store (rt : router) (s : option (store I)) : router :=
  {| ro_entries := ro_entries rt; ro_threshold := ro_threshold rt; ro_sim := ro_sim rt; ro_caching := ro_caching rt; ro_store := s |}.

(** NewRouter, router.go:21-36. *)
Definition new_router (thr : float) (sim : list N -> list N -> float) (caching : bool) : router :=
  {| ro_entries := []; ro_threshold := thr; ro_sim := sim; ro_caching := caching; ro_store := None |}.

(** persistRoute, router.go:351-376; [ev1] is met by CreateCollection, [ev2] by
    UpsertBatch. Utterances[i] is out of range when the embedder answers more vectors
    than texts. *)
Definition persist (ev1 ev2 : env) (em : embedder) (s : store I) (r : route) : store I * outcome unit :=
  let s1 := fst (create_collection I ev1 s routes_coll (em_dim em)) in
  match embed_vectors em (rt_utts r) with
  | Err x => (s1, Err x)
  | Panic => (s1, Panic)
  | Ok vs =>
      if Nat.ltb (length (rt_utts r)) (length vs) then (s1, Panic)
      else upsert_batch I ev2 s1 (map (fun uv => utterance_embedding r (fst uv) (snd uv)) (List.combine (rt_utts r) vs))
  end.

(** Add, router.go:100-132: the route is appended before it is persisted. *)
Definition add (evs : nat -> env) (em : embedder) (rt : router) (o : option route) : router * outcome unit :=
  match o with
  | None => (rt, Err EOther)
  | Some r =>
      if negb (acceptable_route (ro_entries rt) r) then (rt, Err EOther)
      else
        let rt1 := with_entries rt (ro_entries rt ++ [new_entry r]) in
        match ro_store rt with
        | None => (rt1, Ok tt)
        | Some s => let (s', res) := persist (evs 0) (evs 1) em s r in (with_store rt1 (Some s'), res)
        end
  end.

(** The validation loop of AddBatch, router.go:141-155: a nil route is dereferenced. *)
Fixpoint check_batch (es : list entry) (l : list (option route)) : outcome (list route) :=
  match l with
  | [] => Ok []
  | None :: _ => Panic
  | Some r :: l' => if acceptable_route es r then bind (check_batch es l') (fun rs => Ok (r :: rs)) else Err EOther
  end.

(** The persisting loop of AddBatch, router.go:160-166. *)
Fixpoint persist_all (evs : nat -> env) (n : nat) (em : embedder) (s : store I) (rs : list route) : store I * outcome unit :=
  match rs with
  | [] => (s, Ok tt)
  | r :: rs' => let (s', res) := persist (evs n) (evs (S n)) em s r in
                match res with Ok _ => persist_all evs (S (S n)) em s' rs' | _ => (s', res) end
  end.

(** AddBatch, router.go:135-169: every route is checked against the routes registered
    before the call only. *)
Definition add_batch (evs : nat -> env) (em : embedder) (rt : router) (l : list (option route)) : router * outcome unit :=
  match check_batch (ro_entries rt) l with
  | Err x => (rt, Err x)
  | Panic => (rt, Panic)
  | Ok rs =>
      let rt1 := with_entries rt (ro_entries rt ++ map new_entry rs) in
      match ro_store rt with
      | None => (rt1, Ok tt)
      | Some s => let (s', res) := persist_all evs 0 em s rs in (with_store rt1 (Some s'), res)
      end
  end.

(** The stored embeddings of one route, router.go:184-189 and 297-302. *)
Definition stored_vectors (em : embedder) (s : store I) (n : string) : outcome (list scored) :=
  search I srt noise md sc s (Some (zeros (em_dim em))) (route_opts [("route_name", n)] 1000).

(** Remove, router.go:172-204: errors of the store are ignored. *)
Definition remove (evs : nat -> env) (em : embedder) (rt : router) (n : string) : router * outcome unit :=
  match drop_route n (ro_entries rt) with
  | None => (rt, Err EOther)
  | Some es =>
      let rt1 := with_entries rt es in
      match ro_store rt with
      | None => (rt1, Ok tt)
      | Some s =>
          match stored_vectors em s n with
          | Ok l => (with_store rt1 (Some (fst (delete_batch I (evs 0) s (map (fun x => e_id (fst x)) l)))), Ok tt)
          | Err _ => (rt1, Ok tt)
          | Panic => (rt1, Panic)
          end
      end
  end.

(** The in-memory part of getRouteVectors, router.go:312-322: when the first
    computation fails, later calls find an empty cache and no error. *)
Definition cached_vectors (em : embedder) (rt : router) (e : entry) : entry * outcome (list (list N)) :=
  if ro_caching rt then
    match en_cache e with
    | Some vs => (e, Ok vs)
    | None => match embed_vectors em (rt_utts (en_route e)) with
              | Ok vs => ({| en_route := en_route e; en_cache := Some vs |}, Ok vs)
              | x => ({| en_route := en_route e; en_cache := Some [] |}, x)
              end
    end
  else (e, embed_vectors em (rt_utts (en_route e))).

(** getRouteVectors, router.go:294-323. *)
Definition route_vectors (em : embedder) (rt : router) (e : entry) : entry * outcome (list (list N)) :=
  match ro_store rt with
  | None => cached_vectors em rt e
  | Some s => match stored_vectors em s (rt_name (en_route e)) with
              | Ok [] | Err _ => cached_vectors em rt e
              | Ok l => (e, Ok (map (fun x => vec_of (fst x)) l))
              | Panic => (e, Panic)
              end
  end.

(** The inner loop of Route, router.go:230-236. *)
Fixpoint scan_vectors (sim : list N -> list N -> float) (q : list N) (r : route) (vs : list (list N))
  (best : option route * float) : option route * float :=
  match vs with
  | [] => best
  | v :: vs' => scan_vectors sim q r vs' (if fgt (sim q v) (snd best) then (Some r, sim q v) else best)
  end.

(** The outer loop of Route, router.go:224-237. *)
Fixpoint scan_routes (em : embedder) (rt : router) (q : list N) (es : list entry) (best : option route * float)
  : list entry * outcome (option route * float) :=
  match es with
  | [] => ([], Ok best)
  | e :: es' =>
      let (e', res) := route_vectors em rt e in
      match res with
      | Panic => (e' :: es', Panic)
      | Err _ => let (l, out) := scan_routes em rt q es' best in (e' :: l, out)
      | Ok vs => let (l, out) := scan_routes em rt q es' (scan_vectors (ro_sim rt) q (en_route e) vs best) in (e' :: l, out)
      end
  end.

(** Route, router.go:207-251. *)
Definition route_query (em : embedder) (rt : router) (q : string) : router * outcome answer :=
  if String.eqb q "" then (rt, Ok no_answer)
  else match em_one em q with
  | None => (rt, Err EOther)
  | Some v =>
      let (es, out) := scan_routes em rt v (ro_entries rt) (None, f_zero) in
      (with_entries rt es,
       bind out (fun best => match fst best with
         | None => Ok {| an_name := ""; an_score := snd best; an_matched := false; an_handler := None |}
         | Some r => Ok {| an_name := rt_name r; an_score := snd best; an_matched := fge (snd best) (ro_threshold rt);
                           an_handler := rt_handler r |}
         end))
  end.

(** RouteBatch, router.go:254-266. *)
Fixpoint route_batch (em : embedder) (rt : router) (qs : list string) : router * outcome (list answer) :=
  match qs with
  | [] => (rt, Ok [])
  | q :: qs' =>
      let (rt1, res) := route_query em rt q in
      match res with
      | Ok a => let (rt2, out) := route_batch em rt1 qs' in (rt2, bind out (fun l => Ok (a :: l)))
      | Err x => (rt1, Err x)
      | Panic => (rt1, Panic)
      end
  end.

(** List and Get, router.go:269-291. *)
Definition list_routes (rt : router) : list string := map (fun e => rt_name (en_route e)) (ro_entries rt).
Definition get_route (rt : router) (n : string) : option route :=
  option_map en_route (find (fun e => String.eqb (rt_name (en_route e)) n) (ro_entries rt)).

(** The grouping loop of loadRoutesFromStore, router.go:410-427. *)
Fixpoint group_in (n u : string) (l : list route) : list route :=
  match l with
  | [] => [{| rt_name := n; rt_utts := [u]; rt_handler := None |}]
  | r :: l' => if String.eqb (rt_name r) n
               then {| rt_name := n; rt_utts := rt_utts r ++ [u]; rt_handler := None |} :: l'
               else r :: group_in n u l'
  end.
Definition group_results (res : list scored) : list route :=
  fold_left (fun l x => let n := match e_meta (fst x) with Some m => meta_get m "route_name" | None => "" end in
                        if String.eqb n "" then l else group_in n (e_content (fst x)) l) res [].

(** loadRoutesFromStore and NewRouterWithStore, router.go:40-67 and 379-434. [ord] is
    the iteration order of routeMap. The loaded cachedVectors are dropped: cachedOnce
    has not run, so they are recomputed before use (router.go:316-320). *)
Definition load_routes (ord : list route -> list route) (em : embedder) (s : store I) : outcome (list entry) :=
  match list_collections I (fun l => l) s with
  | Err _ => Ok []
  | Panic => Panic
  | Ok cs =>
      if negb (existsb (fun c => String.eqb (c_name c) routes_coll) cs) then Ok []
      else match search I srt noise md sc s (Some (zeros (em_dim em))) (route_opts [] 10000) with
           | Err _ => Ok []
           | Panic => Panic
           | Ok res => Ok (map new_entry (ord (group_results res)))
           end
  end.
Definition new_router_with_store (ord : list route -> list route) (em : embedder) (thr : float)
  (sim : list N -> list N -> float) (caching : bool) (s : store I) : outcome router :=
  bind (load_routes ord em s) (fun es =>
  Ok {| ro_entries := es; ro_threshold := thr; ro_sim := sim; ro_caching := caching; ro_store := Some s |}).

(** Calls on a router. *)
Inductive rcall :=
| CAdd (o : option route) | CAddBatch (l : list (option route)) | CRemove (n : string)
| CRoute (q : string) | CRouteBatch (qs : list string).
Record rop := { op_call : rcall; op_emb : embedder; op_evs : nat -> env }.
Definition rstep (rt : router) (o : rop) : router * outcome unit :=
  match op_call o with
  | CAdd r => add (op_evs o) (op_emb o) rt r
  | CAddBatch l => add_batch (op_evs o) (op_emb o) rt l
  | CRemove n => remove (op_evs o) (op_emb o) rt n
  | CRoute q => let (rt', r) := route_query (op_emb o) rt q in (rt', bind r (fun _ => Ok tt))
  | CRouteBatch qs => let (rt', r) := route_batch (op_emb o) rt qs in (rt', bind r (fun _ => Ok tt))
  end.
Definition rrun (rt : router) (ops : list rop) : router := fold_left (fun rt o => fst (rstep rt o)) ops rt.
End Router.

(** * CachedEmbedder, embedder.go:61-148 *)
Definition cache := list (string * list N).

(** Embed, embedder.go:75-88. *)
Definition cached_embed (em : embedder) (c : cache) (t : string) : cache * outcome (list N) :=
  match assoc t c with
  | Some v => (c, Ok v)
  | None => match em_one em t with
            | None => (c, Err EOther)
            | Some v => ((t, v) :: c, Ok v)
            end
  end.

(** The indexes and texts that are not cached, embedder.go:92-102. *)
Definition uncached (c : cache) (ts : list string) : list (nat * string) :=
  filter (fun it => match assoc (snd it) c with Some _ => false | None => true end) (List.combine (seq 0 (length ts)) ts).
Definition set_nth {A} (i : nat) (x : A) (l : list A) : list A := firstn i l ++ x :: skipn (S i) l.
Definition from_cache (c : cache) (ts : list string) : list (option (list N)) := map (fun t => assoc t c) ts.

(** The fallback loop, embedder.go:113-122. *)
Fixpoint embed_missing (em : embedder) (c : cache) (vs : list (option (list N))) (u : list (nat * string))
  : cache * outcome (list (option (list N))) :=
  match u with
  | [] => (c, Ok vs)
  | (i, t) :: u' => match em_one em t with
                    | None => (c, Err EOther)
                    | Some v => embed_missing em ((t, v) :: c) (set_nth i (Some v) vs) u'
                    end
  end.

(** The loop over the batch answer, embedder.go:125-129: uncachedTexts[batchIdx] is out
    of range when the embedder answers more vectors than texts (indexMap then gives
    index 0, which exists). *)
Fixpoint take_batch (c : cache) (vs : list (option (list N))) (u : list (nat * string)) (bs : list (list N))
  : cache * outcome (list (option (list N))) :=
  match bs, u with
  | [], _ => (c, Ok vs)
  | _ :: _, [] => (c, Panic)
  | v :: bs', (i, t) :: u' => take_batch ((t, v) :: c) (set_nth i (Some v) vs) u' bs'
  end.

(** EmbedBatch, embedder.go:91-133; [ord1] and [ord2] are the iteration orders of the
    map uncached in its two loops. A nil vector is [None]. *)
Definition cached_embed_batch (ord1 ord2 : list (nat * string) -> list (nat * string)) (em : embedder) (c : cache)
  (ts : list string) : cache * outcome (list (option (list N))) :=
  match uncached c ts with
  | [] => (c, Ok (from_cache c ts))
  | u => match em_batch em (map snd (ord1 u)) with
         | None => embed_missing em c (from_cache c ts) (ord2 u)
         | Some bs => take_batch c (from_cache c ts) (ord1 u) bs
         end
  end.
