(** The HNSW index: /repo/pkg/index/hnsw.go.

    Simplifications, used throughout this file:
    - The node map is a list of (id, node) pairs with distinct ids.  Go's map
      iteration order never matters except in Delete, where the chosen entry
      point is a parameter.
    - [dist] is the configured distance function applied to float32 vectors of
      equal length (hnsw.go:593-630); vectors of unequal length make the Go code
      index out of range and are outside this model.
    - [keep] is what the node keeps of its vector (hnsw.go:182-198): the vector
      itself without a quantizer, decode(encode v) with one. Nil vectors and
      failing decodes (hnsw.go:94, distance MaxFloat32) are outside the model.
    - The random level is a parameter of every insertion (hnsw.go:159-171), so
      every theorem ranges over all random choices.
    - M, MaxM, EfConstruction and ef are natural numbers. *)
From Coq Require Import String List Arith ZArith Bool.
From Coq Require Import Floats.SpecFloat.
From Verif Require Import Base Floats64 HeapModel.
Import ListNotations.

Section Hnsw.
Context {vec : Type}.
Variable dist : vec -> vec -> float.
Variable keep : vec -> vec.

(** HNSWNode, hnsw.go:19-27. The node's Level is the number of layers minus 1. *)
Record node := Node { n_vec : vec; n_nbrs : list (list string); n_del : bool }.
Definition nodes := list (string * node).
Definition n_level (n : node) : nat := length (n_nbrs n) - 1.

(** HNSW, hnsw.go:29-53. MaxM = 2*M (hnsw.go:60). *)
Record hnsw := Hnsw { h_M : nat; h_efc : nat; h_nodes : nodes; h_entry : string }.

(** NewHNSW, hnsw.go:56-68. *)
Definition new_hnsw (M efc : nat) : hnsw := Hnsw M efc [] "".

(** h.Nodes[id]. *)
Fixpoint get (ns : nodes) (id : string) : option node :=
  match ns with
  | [] => None
  | (i, n) :: ns' => if String.eqb i id then Some n else get ns' id
  end.
Definition ids_of (ns : nodes) : list string := map fst ns.
(** Assigning through the *HNSWNode pointer of [id]. *)
Definition upd (ns : nodes) (id : string) (f : node -> node) : nodes :=
  map (fun p => if String.eqb (fst p) id then (fst p, f (snd p)) else p) ns.

(** node.Neighbors[layer]; None when the node has no such layer. *)
Definition layer_of (n : node) (layer : nat) : option (list string) := nth_error (n_nbrs n) layer.
(** node.Neighbors[layer] = l. *)
Definition set_layer (layer : nat) (l : list string) (n : node) : node :=
  Node (n_vec n) (set_nth layer l (n_nbrs n)) (n_del n).

(** heapItem and distHeap.Less, hnsw.go:567-578. *)
Local Notation item := (float * string)%type.
Definition less_item (a b : item) : bool := flt (fst a) (fst b).
Definition mem (x : string) (l : list string) : bool := existsb (String.eqb x) l.

(** The state of searchLayer: visited, candidates, dynamicList. *)
Local Notation lstate := (list string * list (float * string) * list (float * string))%type.

(** searchLayer, hnsw.go:290-301: the entry points. *)
Fixpoint start (ns : nodes) (q : vec) (eps : list string) (st : lstate) : outcome lstate :=
  match eps with
  | [] => Ok st
  | p :: eps' =>
      let '(vis, cand, dyn) := st in
      match get ns p with
      | None => Panic
      | Some n =>
          let d := dist q (n_vec n) in
          start ns q eps' (p :: vis, heap_push less_item (d, p) cand, heap_push less_item (SFopp d, p) dyn)
      end
  end.

(** searchLayer, hnsw.go:318-333: one neighbour. *)
Definition visit (ns : nodes) (q : vec) (ef : nat) (st : lstate) (nb : string) : outcome lstate :=
  let '(vis, cand, dyn) := st in
  if mem nb vis then Ok st
  else
    match get ns nb, dyn with
    | Some n, (top, _) :: _ =>
        let d := dist q (n_vec n) in
        if flt d (SFopp top) || Nat.ltb (length dyn) ef then
          let dyn1 := heap_push less_item (SFopp d, nb) dyn in
          let dyn2 := if Nat.ltb ef (length dyn1) then
                        match heap_pop less_item dyn1 with Some (_, r) => r | None => dyn1 end
                      else dyn1 in
          Ok (nb :: vis, heap_push less_item (d, nb) cand, dyn2)
        else Ok (nb :: vis, cand, dyn)
    | _, _ => Panic
    end.
Fixpoint visit_all (ns : nodes) (q : vec) (ef : nat) (nbs : list string) (st : lstate) : outcome lstate :=
  match nbs with
  | [] => Ok st
  | nb :: nbs' => match visit ns q ef st nb with Ok st' => visit_all ns q ef nbs' st' | Err e => Err e | Panic => Panic end
  end.

(** searchLayer, hnsw.go:303-335: the main loop. Running out of [fuel] is reported
    as Panic, so "never panics" includes "the fuel suffices". *)
Fixpoint search_loop (fuel : nat) (ns : nodes) (q : vec) (ef layer : nat) (st : lstate) : outcome (list item) :=
  match fuel with
  | O => Panic
  | S f =>
      let '(vis, cand, dyn) := st in
      match cand with
      | [] => Ok dyn
      | (low, _) :: _ =>
          if match dyn with (top, _) :: _ => flt (SFopp top) low | [] => false end then Ok dyn
          else
            match heap_pop less_item cand with
            | None => Panic
            | Some ((_, c), cand') =>
                match get ns c with
                | None => Panic
                | Some n =>
                    match layer_of n layer with
                    | None => search_loop f ns q ef layer (vis, cand', dyn)
                    | Some nbs =>
                        match visit_all ns q ef nbs (vis, cand', dyn) with
                        | Ok st' => search_loop f ns q ef layer st'
                        | Err e => Err e
                        | Panic => Panic
                        end
                    end
                end
            end
      end
  end.

(** searchLayer, hnsw.go:290-349: closest first. *)
Definition search_layer (ns : nodes) (q : vec) (eps : list string) (ef layer : nat) : outcome (list string) :=
  match start ns q eps ([], [], []) with
  | Ok st =>
      match search_loop (S (length eps + length ns)) ns q ef layer st with
      | Ok dyn => Ok (rev (map snd (heap_drain less_item (length dyn) dyn)))
      | Err e => Err e
      | Panic => Panic
      end
  | Err e => Err e
  | Panic => Panic
  end.

(** searchLayerClosest, hnsw.go:352-358. *)
Definition closest (ns : nodes) (q : vec) (eps : list string) (num layer : nat) : outcome (list string) :=
  match search_layer ns q eps num layer with
  | Ok c => Ok (firstn num c)
  | Err e => Err e
  | Panic => Panic
  end.

(** The loops "for lc := entryNode.Level; lc > stop; lc--", hnsw.go:229-231, 436-438. *)
Fixpoint descend (ns : nodes) (q : vec) (lc stop : nat) (cur : list string) : outcome (list string) :=
  match lc with
  | O => Ok cur
  | S lc' =>
      if Nat.leb (S lc') stop then Ok cur
      else match closest ns q cur 1 (S lc') with
           | Ok cur' => descend ns q lc' stop cur'
           | Err e => Err e
           | Panic => Panic
           end
  end.

(** The distance pairs of selectNeighborsHeuristic, hnsw.go:367-384; the id "query"
    is special in the code. *)
Fixpoint pairs_of (ns : nodes) (q : vec) (cands : list string) : outcome (list item) :=
  match cands with
  | [] => Ok []
  | c :: cs =>
      match (if String.eqb c "query" then Ok f_zero
             else match get ns c with Some n => Ok (dist q (n_vec n)) | None => Panic end), pairs_of ns q cs with
      | Ok d, Ok ps => Ok ((d, c) :: ps)
      | _, _ => Panic
      end
  end.

(** selectNeighborsHeuristic, hnsw.go:361-403. *)
Definition select_neighbors (ns : nodes) (q : vec) (cands : list string) (m : nat) : outcome (list string) :=
  if Nat.leb (length cands) m then Ok cands
  else match pairs_of ns q cands with
       | Ok ps => Ok (firstn m (map snd (ex_sort less_item ps)))
       | Err e => Err e
       | Panic => Panic
       end.

(** M above layer 0, MaxM = 2M at layer 0: hnsw.go:235-238, 250-253. *)
Definition cap (M lc : nat) : nat := match lc with O => 2 * M | S _ => M end.

(** addConnection, hnsw.go:406-420. *)
Definition add_connection (ns : nodes) (from to : string) (lc : nat) : nodes :=
  match get ns from with
  | None => ns
  | Some n =>
      match layer_of n lc with
      | None => ns
      | Some l => if mem to l then ns else upd ns from (set_layer lc (l ++ [to]))
      end
  end.

(** hnsw.go:247-275: prune the neighbour's list when it is over its cap. *)
Definition prune_node (M : nat) (ns : nodes) (nb : string) (lc : nat) : outcome nodes :=
  match get ns nb with
  | None => Panic
  | Some n =>
      match layer_of n lc with
      | None => Ok ns
      | Some l =>
          if Nat.leb (length l) (cap M lc) then Ok ns
          else match select_neighbors ns (n_vec n) l (cap M lc) with
               | Ok l' => Ok (upd ns nb (set_layer lc l'))
               | Err e => Err e
               | Panic => Panic
               end
      end
  end.

(** hnsw.go:243-276: link the new node's neighbours back. InsertBatchParallel does
    not prune (hnsw.go:860-862): [prune] is false there. *)
Fixpoint link_back (prune : bool) (M : nat) (ns : nodes) (id : string) (nbs : list string) (lc : nat) : outcome nodes :=
  match nbs with
  | [] => Ok ns
  | nb :: nbs' =>
      let ns1 := add_connection ns nb id lc in
      match (if prune then prune_node M ns1 nb lc else Ok ns1) with
      | Ok ns2 => link_back prune M ns2 id nbs' lc
      | Err e => Err e
      | Panic => Panic
      end
  end.

(** hnsw.go:234-279: one layer of Insert. Returns the new nodes and currNearest. *)
Definition link_layer (prune : bool) (M efc : nat) (ns : nodes) (id : string) (v : vec) (cur : list string) (lc : nat)
  : outcome (nodes * list string) :=
  match search_layer ns v cur efc lc with
  | Ok cands =>
      match select_neighbors ns v cands (cap M lc) with
      | Ok nbs =>
          match link_back prune M (upd ns id (set_layer lc nbs)) id nbs lc with
          | Ok ns' => Ok (ns', nbs)
          | Err e => Err e
          | Panic => Panic
          end
      | Err e => Err e
      | Panic => Panic
      end
  | Err e => Err e
  | Panic => Panic
  end.

(** for lc := level; lc >= 0; lc--. *)
Fixpoint link_layers (prune : bool) (M efc : nat) (ns : nodes) (id : string) (v : vec) (cur : list string) (lc : nat)
  : outcome nodes :=
  match link_layer prune M efc ns id v cur lc with
  | Ok (ns', nbs) =>
      match lc with
      | O => Ok ns'
      | S lc' => link_layers prune M efc ns' id v nbs lc'
      end
  | Err e => Err e
  | Panic => Panic
  end.

(** Insert after the existence test, hnsw.go:199-286 (also 668-735, 822-869). *)
Definition insert_node (prune : bool) (h : hnsw) (id : string) (v : vec) (lvl : nat) : outcome hnsw :=
  let ns := h_nodes h ++ [(id, Node (keep v) (repeat [] (S lvl)) false)] in
  if String.eqb (h_entry h) "" then Ok (Hnsw (h_M h) (h_efc h) ns id)
  else
    match get ns (h_entry h) with
    | None => Panic
    | Some e =>
        match descend ns v (n_level e) lvl [h_entry h] with
        | Ok cur =>
            match link_layers prune (h_M h) (h_efc h) ns id v cur lvl with
            | Ok ns' => Ok (Hnsw (h_M h) (h_efc h) ns' (if Nat.ltb (n_level e) lvl then id else h_entry h))
            | Err x => Err x
            | Panic => Panic
            end
        | Err x => Err x
        | Panic => Panic
        end
    end.

(** Insert, hnsw.go:174-287. *)
Definition hnsw_insert (h : hnsw) (id : string) (v : vec) (lvl : nat) : outcome hnsw :=
  match get (h_nodes h) id with
  | Some _ => Err EOther
  | None => insert_node true h id v lvl
  end.

(** InsertBatch, hnsw.go:634-738; each vector with its random level. *)
Fixpoint insert_all (prune : bool) (h : hnsw) (vs : list (string * vec * nat)) : outcome hnsw :=
  match vs with
  | [] => Ok h
  | (id, v, lvl) :: vs' =>
      match get (h_nodes h) id with
      | Some _ => insert_all prune h vs'
      | None =>
          match insert_node prune h id v lvl with
          | Ok h' => insert_all prune h' vs'
          | Err e => Err e
          | Panic => Panic
          end
      end
  end.

(** The chunks of InsertBatchParallel, hnsw.go:782-788. *)
Fixpoint chunks {A} (workers size : nat) (l : list A) : list (list A) :=
  match workers with
  | O => []
  | S O => [l]
  | S w => firstn size l :: chunks w size (skipn size l)
  end.

(** Building the sub-graphs, hnsw.go:790-885. The goroutines share nothing but the
    read-only parameters, so their interleaving is irrelevant. *)
Fixpoint build_all (M efc : nat) (cs : list (list (string * vec * nat))) : outcome (list hnsw) :=
  match cs with
  | [] => Ok []
  | c :: cs' =>
      match insert_all false (new_hnsw M efc) c with
      | Ok g => match build_all M efc cs' with Ok gs => Ok (g :: gs) | Err e => Err e | Panic => Panic end
      | Err e => Err e
      | Panic => Panic
      end
  end.

(** Merging the nodes, hnsw.go:898-904. *)
Definition add_missing (ns : nodes) (p : string * node) : nodes :=
  match get ns (fst p) with Some _ => ns | None => ns ++ [p] end.
Definition merge_nodes (ns : nodes) (gs : list hnsw) : nodes :=
  fold_left (fun ns g => fold_left add_missing (h_nodes g) ns) gs ns.
(** Updating the entry point, hnsw.go:906-920. *)
Definition merge_entry (ns : nodes) (entry : string) (g : hnsw) : string :=
  if String.eqb (h_entry g) "" then entry
  else if String.eqb entry "" then h_entry g
  else match get ns entry, get ns (h_entry g) with
       | Some e, Some pe => if Nat.ltb (n_level e) (n_level pe) then h_entry g else entry
       | _, _ => entry
       end.

(** InsertBatchParallel, hnsw.go:752-923. *)
Definition insert_parallel (h : hnsw) (vs : list (string * vec * nat)) (workers : nat) : outcome hnsw :=
  if Nat.leb workers 1 then insert_all true h vs
  else
    let size := length vs / workers in
    if Nat.ltb size 10 then insert_all true h vs
    else
      match build_all (h_M h) (h_efc h) (chunks workers size vs) with
      | Ok gs =>
          let ns := merge_nodes (h_nodes h) gs in
          Ok (Hnsw (h_M h) (h_efc h) ns (fold_left (merge_entry ns) gs (h_entry h)))
      | Err e => Err e
      | Panic => Panic
      end.

(** Search, hnsw.go:423-481, with (id, distance) pairs. A negative k makes
    make([]string, limit) panic. *)
Fixpoint alive_pairs (ns : nodes) (q : vec) (cands : list string) : list item :=
  match cands with
  | [] => []
  | c :: cs =>
      match get ns c with
      | Some n => if n_del n then alive_pairs ns q cs else (dist q (n_vec n), c) :: alive_pairs ns q cs
      | None => alive_pairs ns q cs
      end
  end.
Definition hnsw_search (h : hnsw) (q : vec) (k : Z) (ef : nat) : outcome (list item) :=
  if String.eqb (h_entry h) "" then Ok []
  else
    match get (h_nodes h) (h_entry h) with
    | None => Panic
    | Some e =>
        match descend (h_nodes h) q (n_level e) 0 [h_entry h] with
        | Ok cur =>
            match search_layer (h_nodes h) q cur ef 0 with
            | Ok cands =>
                if Z.ltb k 0 then Panic
                else Ok (firstn (Z.to_nat k) (ex_sort less_item (alive_pairs (h_nodes h) q cands)))
            | Err x => Err x
            | Panic => Panic
            end
        | Err x => Err x
        | Panic => Panic
        end
    end.

(** SearchVectorIndex, hnsw.go:743-750. *)
Definition hnsw_search_default (h : hnsw) (q : vec) (k : Z) : outcome (list item) :=
  hnsw_search h q k (if Z.ltb 50 k then Z.to_nat (2 * k) else 50).

(** Delete, hnsw.go:484-506. [choice] stands for the map iteration: the entry point
    becomes one of the nodes that are not deleted, if any. *)
Definition alive_ids (ns : nodes) : list string := map fst (filter (fun p => negb (n_del (snd p))) ns).
Definition hnsw_delete (h : hnsw) (id : string) (choice : nat) : outcome hnsw :=
  match get (h_nodes h) id with
  | None => Err ENotFound
  | Some _ =>
      let ns := upd (h_nodes h) id (fun n => Node (n_vec n) (n_nbrs n) true) in
      let alive := alive_ids ns in
      let entry := if String.eqb (h_entry h) id then
                     match nth_error alive (choice mod length alive) with Some x => x | None => h_entry h end
                   else h_entry h in
      Ok (Hnsw (h_M h) (h_efc h) ns entry)
  end.

(** Size, hnsw.go:509-520. *)
Definition hnsw_size (h : hnsw) : nat := length (alive_ids (h_nodes h)).

(** Histories. An operation that returns an error leaves the index as it was. *)
Inductive hop :=
| HInsert (id : string) (v : vec) (lvl : nat)
| HBatch (vs : list (string * vec * nat))
| HParallel (vs : list (string * vec * nat)) (workers : nat)
| HDelete (id : string) (choice : nat).
Definition hstep (h : hnsw) (o : hop) : outcome hnsw :=
  match o with
  | HInsert id v lvl => hnsw_insert h id v lvl
  | HBatch vs => insert_all true h vs
  | HParallel vs w => insert_parallel h vs w
  | HDelete id c => hnsw_delete h id c
  end.
Fixpoint hrun (h : hnsw) (ops : list hop) : outcome hnsw :=
  match ops with
  | [] => Ok h
  | o :: ops' =>
      match hstep h o with
      | Ok h' => hrun h' ops'
      | Err _ => hrun h ops'
      | Panic => Panic
      end
  end.
End Hnsw.
Arguments node : clear implicits.
Arguments nodes : clear implicits.
Arguments hnsw : clear implicits.
Arguments hop : clear implicits.
