(** Model of Dump and Load, /repo/pkg/core/io.go, over the store of StoreModel.v.
    JSON text is represented by what encoding/json makes of it: [utf8] is the replacement
    of invalid UTF-8 by the encoder, and finite float32 numbers survive the text exactly
    (shortest decimal that reads back). Export metadata, file handling and BytesWritten
    are not modelled. *)
From Coq Require Import String List NArith ZArith Bool.
From Verif Require Import Base Floats64 EncodingModel StoreModel SearchModel SqlModel FilterModel.
Import ListNotations.
Open Scope string_scope.
Open Scope list_scope.

(** DumpFormat, io.go:20-29; [FOtherFormat] is any other word. *)
Inductive format := FJson | FJsonl | FCsv | FOtherFormat.
(** DumpOptions, io.go:32-38. A filter without expression counts as none (209). *)
Record dump_opts := { do_format : format; do_vectors : bool; do_filter : option fexpr }.
(** LoadOptions, io.go:270-276; both values of Upsert do the same (361-365). *)
Record load_opts := { lo_format : format; lo_skip : bool }.
(** ImportStats, io.go:69-74. *)
Record import_stats := { im_total : nat; im_failed : nat; im_skipped : nat }.

(** encoding/json refuses NaN and infinities: exponent field all ones. *)
Definition finite_bits (n : N) : bool := N.ltb (N.modulo (N.div n 8388608) 256) 255.

(** *** Dump *)
Section Dump.
Variable utf8 : string -> string.

(** Embedding as JSON (embedding.go:9-18) and read back: empty metadata is omitted. *)
Definition json_meta (m : option smap) : option smap :=
  match m with None => None | Some [] => None | Some l => Some (map (fun kv => (utf8 (fst kv), utf8 (snd kv))) l) end.
Definition json_embedding (e : embedding) : embedding :=
  {| e_id := utf8 (e_id e); e_collid := e_collid e; e_coll := utf8 (e_coll e); e_vec := e_vec e; e_content := utf8 (e_content e);
     e_doc := utf8 (e_doc e); e_meta := json_meta (e_meta e); e_acl := map utf8 (e_acl e) |}.
Definition encodes (e : embedding) : bool := match e_vec e with Some v => forallb finite_bits v | None => true end.

(** getAllEmbeddings, io.go:201-251. The WHERE text comes from the filter; the column
    metadata is qualified (213). [scan] is the order of the rows. The access list is
    not read. *)
Definition dump_rows (Nm : numerals) (d : db) (f : option fexpr) : outcome (list row) :=
  match f with
  | None => Ok (t_rows d)
  | Some x => bind (build_sql x) (fun t =>
      match t with
      | [] => Ok (t_rows d)
      | _ => if existsb (failing (clause_of Nm d t)) (t_rows d) then Err EOther else Ok (filter (selects (clause_of Nm d t)) (t_rows d))
      end)
  end.
Definition drop_vector (keep : bool) (e : embedding) : embedding :=
  {| e_id := e_id e; e_collid := e_collid e; e_coll := e_coll e; e_vec := if keep then e_vec e else None; e_content := e_content e;
     e_doc := e_doc e; e_meta := e_meta e; e_acl := e_acl e |}.
Definition all_embeddings (Nm : numerals) (scan : list row -> list row) (d : db) (o : dump_opts) : outcome (list embedding) :=
  bind (dump_rows Nm d (do_filter o)) (fun rows =>
    Ok (map (drop_vector (do_vectors o)) (oks (map (scan_search d) (scan rows))))).

(** What is written: a JSON document, lines of JSON, or CSV records (id, content, doc_id,
    metadata, vector). *)
Inductive dumped := DDoc (items : list embedding) | DLines (items : list embedding) | DCsv (records : list (string * string * string * option smap * option (list N))).
(** Dump with dumpJSON, dumpJSONL and dumpCSV, io.go:77-198. On success: what was written
    and TotalEmbeddings. *)
Definition dump_store (I : index_ops) (Nm : numerals) (scan : list row -> list row) (s : store I) (o : dump_opts) : outcome (dumped * nat) :=
  if st_closed I s then Err EClosed
  else match do_format o with
       | FOtherFormat => Err EOther
       | FCsv => bind (all_embeddings Nm scan (st_db I s) o) (fun es =>
           Ok (DCsv (map (fun e => (e_id e, e_content e, e_doc e, e_meta e, if do_vectors o then e_vec e else None)) es), length es))
       | f => bind (all_embeddings Nm scan (st_db I s) o) (fun es =>
           if forallb encodes es
           then Ok (match f with FJson => DDoc | _ => DLines end (map json_embedding es), length es)
           else Err EOther)
       end.
End Dump.

(** *** Load *)
Section Load.
Variable I : index_ops.
Notation store := (store I).
Variable evs : nat -> env.

(** Outcome of one item. *)
Inductive fate := Stored | Skipped | Failed | Crashed.
(** processImportEmbedding, io.go:351-366; [n] numbers the items. *)
Definition import_one (o : load_opts) (n : nat) (s : store) (e : embedding) : store * fate :=
  if lo_skip o && match get_by_id I s (e_id e) with Ok _ => true | _ => false end then (s, Skipped)
  else match upsert I (evs n) s e with
       | (s', Ok _) => (s', Stored)
       | (s', Err _) => (s', Failed)
       | (s', Panic) => (s', Crashed)
       end.
Definition tally (f : fate) (t : import_stats) : import_stats :=
  match f with
  | Stored => {| im_total := S (im_total t); im_failed := im_failed t; im_skipped := im_skipped t |}
  | Skipped => {| im_total := im_total t; im_failed := im_failed t; im_skipped := S (im_skipped t) |}
  | Failed => {| im_total := im_total t; im_failed := S (im_failed t); im_skipped := im_skipped t |}
  | Crashed => t
  end.
Definition no_stats : import_stats := {| im_total := 0; im_failed := 0; im_skipped := 0 |}.

(** The loop of loadJSON, io.go:304-315. An item is a pointer: JSON null is nil, and its
    ID is read at once. *)
Fixpoint load_items (o : load_opts) (n : nat) (s : store) (t : import_stats) (items : list (option embedding)) : store * outcome import_stats :=
  match items with
  | [] => (s, Ok t)
  | None :: _ => (s, Panic)
  | Some e :: l => match import_one o n s e with
                   | (s', Crashed) => (s', Panic)
                   | (s', f) => load_items o (S n) s' (tally f t) l
                   end
  end.

(** What json.Decoder finds in a stream: values that fit an Embedding, values that do not
    (it goes on after them), and at the end either nothing or text that is no JSON, a cut
    off value or a read error (all of which it reports again on every further call). *)
Inductive jline := JFits (e : embedding) | JMisfit.
Inductive jend := JEof | JBroken.
(** The loop of loadJSONL, io.go:325-345, one round at a time. *)
Inductive progress := Running (rest : list jline) (n : nat) (s : store) (t : import_stats) | Finished (s : store) (t : import_stats) | Dead (s : store).
Definition jsonl_round (o : load_opts) (e : jend) (p : progress) : progress :=
  match p with
  | Running [] n s t => match e with JEof => Finished s t | JBroken => Running [] (S n) s (tally Failed t) end
  | Running (JMisfit :: l) n s t => Running l (S n) s (tally Failed t)
  | Running (JFits x :: l) n s t => match import_one o n s x with (s', Crashed) => Dead s' | (s', f) => Running l (S n) s' (tally f t) end
  | _ => p
  end.
Fixpoint rounds (o : load_opts) (e : jend) (k : nat) (p : progress) : progress :=
  match k with O => p | S k' => rounds o e k' (jsonl_round o e p) end.

(** Input of Load, as the decoder of each format sees it: a document that decodes or not,
    and a stream of values. *)
Record input := { as_doc : option (list (option embedding)); as_lines : list jline; as_end : jend }.
(** Load, io.go:254-267, after [k] rounds of the loop of loadJSONL; [None] while it is
    still running. *)
Definition load_store (o : load_opts) (s : store) (i : input) (k : nat) : option (store * outcome import_stats) :=
  if st_closed I s then Some (s, Err EClosed)
  else match lo_format o with
       | FJson => match as_doc i with
                  | Some items => Some (load_items o 0 s no_stats items)
                  | None => Some (s, Err EOther)
                  end
       | FJsonl => match rounds o (as_end i) k (Running (as_lines i) 0 s no_stats) with
                   | Running _ _ _ _ => None
                   | Finished s' t => Some (s', Ok t)
                   | Dead s' => Some (s', Panic)
                   end
       | _ => Some (s, Err EOther)
       end.
End Load.
