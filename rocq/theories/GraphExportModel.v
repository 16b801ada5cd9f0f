(** Model of ExportJSON and ImportJSON, /repo/pkg/graph/graph_export.go:515-588, over the
    graph of GraphModel.

    JSON text is represented by what encoding/json makes of it, as in IoModel: [utf8] is
    the replacement of invalid UTF-8, numbers survive the text exactly when they are finite
    and cannot be encoded when they are not, empty maps and slices behind `omitempty` come
    back nil.  The "metadata" member is not read by ImportJSON and left out. *)
From Coq Require Import String List NArith ZArith Bool.
From Coq Require Import Floats.SpecFloat.
From Verif Require Import Base Floats64 StoreModel GraphModel IoModel.
Import ListNotations.
Open Scope string_scope.
Open Scope list_scope.

(** The "nodes" and "edges" of the file, graph_export.go:540-548. *)
Record graph_file := { gf_nodes : list gnode; gf_edges : list gedge }.

(** The edges of one node, graph_export.go:527-538: a node whose edges cannot be read is
    skipped, edges already seen are not repeated. *)
Fixpoint add_edges (acc es : list gedge) : list gedge :=
  match es with
  | [] => acc
  | e :: r => if in_ids (map ge_id acc) (ge_id e) then add_edges acc r else add_edges (acc ++ [e]) r
  end.
Definition collect_edges (ord : string -> list gedge -> list gedge) (d : gdb) (ns : list gnode) : list gedge :=
  fold_left (fun acc n => match get_edges ord d (n_id n) "out" with Ok es => add_edges acc es | _ => acc end) ns [].

Section Json.
Variable utf8 : string -> string.
(** What the decoder makes of one encoded node and edge; tags at graph.go:15-35. *)
Definition json_node (n : gnode) : gnode :=
  {| n_id := utf8 (n_id n); n_vec := n_vec n; n_content := utf8 (n_content n); n_type := utf8 (n_type n); n_props := json_meta utf8 (n_props n) |}.
Definition json_edge (e : gedge) : gedge :=
  {| ge_id := utf8 (ge_id e); ge_from := utf8 (ge_from e); ge_to := utf8 (ge_to e); ge_type := utf8 (ge_type e); ge_weight := ge_weight e;
     ge_props := json_meta utf8 (ge_props e); ge_vec := ge_vec e |}.
(** json: unsupported value. *)
Definition finite_weight (w : float) : bool := match w with S754_zero _ | S754_finite _ _ _ => true | _ => false end.
Definition node_encodes (n : gnode) : bool := forallb finite_bits (n_vec n).
Definition edge_encodes (e : gedge) : bool := finite_weight (ge_weight e) && forallb finite_bits (ge_vec e).

(** ExportJSON, graph_export.go:515-557; [ordn] is the order of the node rows.  The value is
    what a decoder reads back from the text written. *)
Definition export_json (ordn : list gnode -> list gnode) (ord : string -> list gedge -> list gedge) (d : gdb) : outcome graph_file :=
  let ns := ordn (g_nodes d) in
  let es := collect_edges ord d ns in
  if forallb node_encodes ns && forallb edge_encodes es
  then Ok {| gf_nodes := map json_node ns; gf_edges := map json_edge es |}
  else Err EOther.
End Json.

(** ImportJSON, graph_export.go:560-588: [ev1] and [ev2] are the environments of the two
    batches; entries that a batch refuses are not reported. *)
Definition import_json (ev1 ev2 : env) (d : gdb) (f : graph_file) : gdb * outcome unit :=
  match upsert_nodes_batch ev1 d (map Some (gf_nodes f)) with
  | (d1, Ok _) => match upsert_edges_batch ev2 d1 (map Some (gf_edges f)) with
                  | (d2, Ok _) => (d2, Ok tt)
                  | (d2, Err e) => (d2, Err e)
                  | (d2, Panic) => (d2, Panic)
                  end
  | (d1, Err e) => (d1, Err e)
  | (d1, Panic) => (d1, Panic)
  end.
