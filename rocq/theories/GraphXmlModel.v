(** Model of the GraphML and GEXF export and import and of DetectFormat,
    /repo/pkg/graph/graph_export.go:60-512, 620-654, over the graph of GraphModel.

    XML text is represented by what the decoder makes of it: [xtext] is what is left of a
    text written as XML character data or attribute (characters that XML does not allow
    are replaced), [jtext] what is left of one written as JSON inside XML. The value of a
    data element is what the code wrote into it; what reading such a value in another way
    gives (a vector read as a number, say) is left open ([other_...]). The meta data of the
    document, which the import does not read, is left out. Failures of the writer and
    reader are not modelled. *)
From Coq Require Import String List NArith ZArith Bool.
From Coq Require Import Floats.SpecFloat.
From Verif Require Import Base Floats64 StoreModel GraphModel IoModel GraphExportModel ParseModel.
Import ListNotations.
Open Scope string_scope.
Open Scope list_scope.

(** What a data element holds: a text, a vector or properties as JSON (nothing when the
    vector cannot be written as JSON), a number as %f. *)
Inductive xvalue := XText (s : string) | XVector (v : list N) | XProps (m : smap) | XNumber (w : float) | XNothing.
(** GraphMLDocument, graph_export.go:16-58: keys as pairs of id and attribute name. *)
Record ml_node := { mn_id : string; mn_data : list (string * xvalue) }.
Record ml_edge := { me_id : string; me_from : string; me_to : string; me_data : list (string * xvalue) }.
Record ml_doc := { md_keys : list (string * string); md_nodes : list ml_node; md_edges : list ml_edge }.
(** GEXFDocument, graph_export.go:260-320. *)
Record gx_node := { gn_id : string; gn_label : string; gn_data : list (string * xvalue) }.
Record gx_edge := { gx_id : string; gx_from : string; gx_to : string; gx_weight : float; gx_type : string }.
Record gx_doc := { gd_attrs : list (string * string); gd_nodes : list gx_node; gd_edges : list gx_edge }.

(** fmt.Sprintf("%f") read back by strconv.ParseFloat: the nearest multiple of 10^-6 (ties
    to the even one), read as the nearest float64. *)
Definition six_digits (m : positive) (e : Z) : Z :=
  let n := (Z.pos m * 1000000)%Z in
  if (0 <=? e)%Z then (n * 2 ^ e)%Z
  else let d := (2 ^ (- e))%Z in
       let q := (n / d)%Z in
       let r := (n mod d)%Z in
       if (2 * r <? d)%Z then q else if (d <? 2 * r)%Z then (q + 1)%Z else if Z.even q then q else (q + 1)%Z.
Definition fixed6 (w : float) : float :=
  match w with
  | S754_finite s m e => match six_digits m e with
                         | Zpos k => SFdiv 53 1024 (S754_finite s k 0) (S754_finite false 1000000 0)
                         | _ => S754_zero s
                         end
  | _ => w
  end.

Section Xml.
Variables xtext jtext : string -> string.
Variables (other_text : xvalue -> string) (other_vec : xvalue -> option (list N)) (other_props : xvalue -> option smap) (other_num : xvalue -> option float).
Definition read_text (x : xvalue) : string := match x with XText s => s | XNothing => EmptyString | _ => other_text x end.
(** json.Unmarshal into the vector; None is an error. *)
Definition read_vec (x : xvalue) : option (list N) := match x with XVector v => Some v | XNothing => None | _ => other_vec x end.
(** json.Unmarshal into the properties; None leaves them as they are. *)
Definition read_props (x : xvalue) : option smap := match x with XProps m => Some m | XNothing => None | _ => other_props x end.
Definition read_num (x : xvalue) : option float := match x with XNumber w => Some (fixed6 w) | XNothing => None | _ => other_num x end.

(** json.Marshal of a vector whose error is dropped, graph_export.go:111, 371. *)
Definition vec_value (v : list N) : xvalue := if forallb finite_bits v then XVector v else XNothing.
Definition props_value (m : smap) : xvalue := XProps (map (fun kv => (jtext (fst kv), jtext (snd kv))) m).
(** The data of a node, graph_export.go:101-119 and 361-380: [k0] to [k3] are the keys. *)
Definition node_data (k0 k1 k2 k3 : string) (n : gnode) : list (string * xvalue) :=
  [(k0, XText (xtext (n_content n))); (k1, XText (xtext (n_type n)))] ++
  (match n_vec n with [] => [] | v => [(k2, vec_value v)] end) ++
  (match n_props n with None => [] | Some m => [(k3, props_value m)] end).

(** ExportGraphML, graph_export.go:61-161. *)
Definition ml_export_node (n : gnode) : ml_node := {| mn_id := xtext (n_id n); mn_data := node_data "d0" "d1" "d2" "d3" n |}.
Definition ml_export_edge (e : gedge) : ml_edge :=
  {| me_id := xtext (ge_id e); me_from := xtext (ge_from e); me_to := xtext (ge_to e);
     me_data := [("d4", XText (xtext (ge_type e))); ("d5", XNumber (ge_weight e))] ++
                (match ge_props e with None => [] | Some m => [("d6", props_value m)] end) |}.
Definition export_graphml (ordn : list gnode -> list gnode) (ord : string -> list gedge -> list gedge) (d : gdb) : ml_doc :=
  {| md_keys := [("d0", "content"); ("d1", "type"); ("d2", "vector"); ("d3", "properties"); ("d4", "type"); ("d5", "weight"); ("d6", "properties")];
     md_nodes := map ml_export_node (ordn (g_nodes d)); md_edges := map ml_export_edge (collect_edges ord d (ordn (g_nodes d))) |}.

(** keyMap[key]: the last entry for the key counts, graph_export.go:173-176. *)
Definition key_name (keys : list (string * string)) (k : string) : string :=
  fold_left (fun acc kv => if String.eqb (fst kv) k then snd kv else acc) keys "".
(** make([]float32, 3). *)
Definition default_vec : list N := [0; 0; 0]%N.
(** One data element of a node, graph_export.go:187-202 and 438-452. A second properties
    element replaces the first here, where the code merges them; the export writes one. *)
Definition node_field (keys : list (string * string)) (n : gnode) (kv : string * xvalue) : gnode :=
  let a := key_name keys (fst kv) in
  if String.eqb a "content" then {| n_id := n_id n; n_vec := n_vec n; n_content := read_text (snd kv); n_type := n_type n; n_props := n_props n |}
  else if String.eqb a "type" then {| n_id := n_id n; n_vec := n_vec n; n_content := n_content n; n_type := read_text (snd kv); n_props := n_props n |}
  else if String.eqb a "vector" then
    {| n_id := n_id n; n_vec := match read_vec (snd kv) with Some v => v | None => default_vec end; n_content := n_content n; n_type := n_type n; n_props := n_props n |}
  else if String.eqb a "properties" then
    {| n_id := n_id n; n_vec := n_vec n; n_content := n_content n; n_type := n_type n; n_props := match read_props (snd kv) with Some m => Some m | None => n_props n end |}
  else n.
(** graph_export.go:204-207, 454-457. *)
Definition ensure_vec (n : gnode) : gnode :=
  match n_vec n with
  | [] => {| n_id := n_id n; n_vec := default_vec; n_content := n_content n; n_type := n_type n; n_props := n_props n |}
  | _ => n
  end.
Definition ml_import_node (keys : list (string * string)) (x : ml_node) : gnode :=
  ensure_vec (fold_left (node_field keys) (mn_data x) {| n_id := mn_id x; n_vec := []; n_content := ""; n_type := ""; n_props := Some [] |}).
(** One data element of an edge, graph_export.go:229-241. *)
Definition edge_field (keys : list (string * string)) (e : gedge) (kv : string * xvalue) : gedge :=
  let a := key_name keys (fst kv) in
  if String.eqb a "type" then {| ge_id := ge_id e; ge_from := ge_from e; ge_to := ge_to e; ge_type := read_text (snd kv); ge_weight := ge_weight e; ge_props := ge_props e; ge_vec := ge_vec e |}
  else if String.eqb a "weight" then
    {| ge_id := ge_id e; ge_from := ge_from e; ge_to := ge_to e; ge_type := ge_type e; ge_weight := match read_num (snd kv) with Some w => w | None => ge_weight e end; ge_props := ge_props e; ge_vec := ge_vec e |}
  else if String.eqb a "properties" then
    {| ge_id := ge_id e; ge_from := ge_from e; ge_to := ge_to e; ge_type := ge_type e; ge_weight := ge_weight e; ge_props := match read_props (snd kv) with Some m => Some m | None => ge_props e end; ge_vec := ge_vec e |}
  else e.
Definition ml_import_edge (keys : list (string * string)) (x : ml_edge) : gedge :=
  fold_left (edge_field keys) (me_data x)
    {| ge_id := me_id x; ge_from := me_from x; ge_to := me_to x; ge_type := ""; ge_weight := f_one; ge_props := Some []; ge_vec := [] |}.
(** ImportGraphML, graph_export.go:164-253. *)
Definition import_graphml (ev1 ev2 : env) (d : gdb) (x : ml_doc) : gdb * outcome unit :=
  import_json ev1 ev2 d {| gf_nodes := map (ml_import_node (md_keys x)) (md_nodes x); gf_edges := map (ml_import_edge (md_keys x)) (md_edges x) |}.

(** ExportGEXF, graph_export.go:322-418: the weight attribute is written exactly; it and
    the type are left out when zero or empty, and read back as such. *)
Definition gx_export_node (n : gnode) : gx_node :=
  {| gn_id := xtext (n_id n); gn_label := xtext (n_content n); gn_data := node_data "0" "1" "2" "3" n |}.
Definition gx_export_edge (e : gedge) : gx_edge :=
  {| gx_id := xtext (ge_id e); gx_from := xtext (ge_from e); gx_to := xtext (ge_to e); gx_weight := ge_weight e; gx_type := xtext (ge_type e) |}.
Definition export_gexf (ordn : list gnode -> list gnode) (ord : string -> list gedge -> list gedge) (d : gdb) : gx_doc :=
  {| gd_attrs := [("0", "content"); ("1", "type"); ("2", "vector"); ("3", "properties")];
     gd_nodes := map gx_export_node (ordn (g_nodes d)); gd_edges := map gx_export_edge (collect_edges ord d (ordn (g_nodes d))) |}.
(** ImportGEXF, graph_export.go:421-492. *)
Definition gx_import_node (attrs : list (string * string)) (x : gx_node) : gnode :=
  ensure_vec (fold_left (node_field attrs) (gn_data x) {| n_id := gn_id x; n_vec := []; n_content := gn_label x; n_type := ""; n_props := Some [] |}).
Definition gx_import_edge (x : gx_edge) : gedge :=
  {| ge_id := gx_id x; ge_from := gx_from x; ge_to := gx_to x; ge_type := gx_type x;
     ge_weight := if feq (gx_weight x) f_zero then f_one else gx_weight x; ge_props := Some []; ge_vec := [] |}.
Definition import_gexf (ev1 ev2 : env) (d : gdb) (x : gx_doc) : gdb * outcome unit :=
  import_json ev1 ev2 d {| gf_nodes := map (gx_import_node (gd_attrs x)) (gd_nodes x); gf_edges := map gx_import_edge (gd_edges x) |}.
End Xml.

(** *** DetectFormat *)
Inductive gformat := FGraphML | FGEXF | FJSON.
(** strings.Contains. *)
Definition str_contains (s part : string) : bool := match index 0 part s with Some _ => true | None => false end.
(** DetectFormat, graph_export.go:624-654, on the bytes of one Read. *)
Definition detect (buf : string) : option gformat :=
  let c := trim_space buf in
  let json := if prefix "{" c then Some FJSON else None in
  if prefix "<?xml" c || prefix "<graphml" c then
    if str_contains c "graphml" then Some FGraphML else if str_contains c "gexf" then Some FGEXF else json
  else json.
(** On a reader: one Read of at most 512 bytes ([n] is the number it gives), which are gone
    afterwards. *)
Definition detect_reader (n : nat) (content : string) : option gformat * string :=
  let n := Nat.min n 512 in (detect (substring 0 n content), substring n (String.length content - n) content).
