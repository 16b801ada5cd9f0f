(** Concrete cases for the theorems on knowledge, and claims that are false of the code. *)
From Coq Require Import String Ascii List NArith ZArith Bool Permutation Sorted Lia.
From Coq Require Import Floats.SpecFloat.
From Verif Require Import Base Floats64 EncodingSpec DimensionModel SearchModel RagModel RagSpec RagProps ToolGraphModel StoreModel StoreSpec StoreProps StoreQuerySpec StoreQueryProofs StoreProofs2
  GraphModel GraphSpec GraphProofs GraphProps ToolGraphSpec ToolGraphProofs ToolGraphProofs2 ToolGraphProps ToolGraphProps2 KnowModel KnowSpec KnowProofs KnowProofs2 KnowProofs3 KnowProps.
Import ListNotations.
Open Scope string_scope.
Open Scope list_scope.

(** Pieces of four letters; every text has the vector (1). *)
Fixpoint cut4 (fuel : nat) (s : string) : list string :=
  match fuel with
  | O => []
  | S f => if String.eqb s "" then [] else String.substring 0 4 s :: cut4 f (String.substring 4 (String.length s) s)
  end.
Definition split4 (s : string) (_ _ : Z) : list string := cut4 (String.length s) s.
Definition same (s : string) : string := s.
Definition one_vec (_ : Z) (_ : string) : list N := [0x3f800000%N].
Definition ids_text (l : list string) : string := String.concat "," l.
Definition as_is (l : list row) : list row := l.
Definition str_sort := ex_sort String.ltb.
Definition fine_kv (_ : nat) : env := all_fine.
(** Call [c] fails at its first statement. *)
Definition fail_at (c : nat) (i : nat) : env := {| ev_fk := true; ev_ok := fun _ => negb (Nat.eqb c i); ev_noise := fun _ => f_zero |}.
Definition kdb0 : kdb no_index := {| k_store := new_store 2 SmartAdapt; k_graph := new_graph |}.
Definition save4 := save_knowledge no_index same same one_vec split4 ids_text as_is as_stored str_sort true.
Definition update4 := update_knowledge no_index same same one_vec split4 ids_text as_is as_stored str_sort true.
Definition get4 := get_knowledge no_index same as_is as_stored str_sort.
Definition ada : tentity := {| te_id := ""; te_name := "Ada"; te_type := ""; te_desc := ""; te_chunks := ["chunk:a:000"]; te_meta := [] |}.
Definition bob : tentity := {| te_id := ""; te_name := "Bob"; te_type := ""; te_desc := ""; te_chunks := ["chunk:a:001"]; te_meta := [] |}.
Definition knows : trelation := {| tl_from := "Ada"; tl_to := "Bob"; tl_type := ""; tl_weight := f_zero; tl_chunks := []; tl_meta := [] |}.
Definition save_a : ksave := {| ks_id := "a"; ks_title := "T"; ks_content := "AdaxBobx"; ks_url := "u"; ks_author := "w"; ks_coll := ""; ks_size := 0; ks_overlap := 0; ks_meta := Some [("k", "v")];
                                ks_ents := [ada; bob]; ks_rels := [knows] |}.
Definition save_b : ksave := {| ks_id := "b"; ks_title := ""; ks_content := "else"; ks_url := ""; ks_author := ""; ks_coll := "other"; ks_size := 0; ks_overlap := 0; ks_meta := None; ks_ents := []; ks_rels := [] |}.
Definition kdb1 : kdb no_index := fst (save4 fine_kv kdb0 save_a).
Definition kdb2 : kdb no_index := fst (save4 fine_kv kdb1 save_b).

Lemma storable1 : storable one_vec.
Proof. intros d t. split; [discriminate|]. split; [repeat constructor|cbn; lia]. Qed.
Lemma calm1 : calm fine_kv.
Proof. intros i. split; reflexivity. Qed.
Lemma sound0 : sound no_index kdb0.
Proof. split; [apply (reach_new no_index fk_env 2 SmartAdapt tt); reflexivity|]. split; [reflexivity|constructor]. Qed.
Lemma as_is_perm : forall l, Permutation l (as_is l).
Proof. reflexivity. Qed.
Lemma proper_a : proper same (ks_id save_a) (ks_content save_a) (split4 (ks_content save_a) 120 0) (ks_meta save_a) (ks_ents save_a) (ks_rels save_a).
Proof.
  constructor; try discriminate.
  - repeat constructor; intros [].
  - intros e [<-|[<-|[]]]; constructor.
  - intros r [<-|[]]. split; [constructor|discriminate].
Qed.
Lemma proper_b : proper same (ks_id save_b) (ks_content save_b) (split4 (ks_content save_b) 120 0) (ks_meta save_b) (ks_ents save_b) (ks_rels save_b).
Proof. constructor; try discriminate; try (intros e []). exact Logic.I. Qed.
Lemma dim2 (k : kdb no_index) name : sound no_index k -> name <> "" -> exists d, text_dimension no_index (k_store no_index k) name d.
Proof. intros S N. exists (lexical_dim no_index (k_store no_index k) name). apply dim_iff; [exact N|apply S|reflexivity]. Qed.
Lemma sound1 : sound no_index kdb1 /\ weights_numbers (k_graph no_index kdb1).
Proof.
  destruct (dim2 kdb0 "graphrag_chunks" sound0 ltac:(discriminate)) as [d Hd].
  destruct (knowledge_saved_exact no_index as_is same same one_vec split4 ids_text as_stored str_sort fine_kv kdb0 save_a 120 0 "graphrag_chunks" d as_is_perm as_stored_order (ex_sort_ok _) storable1 sound0 calm1) as (k' & a & E & S & W & _); auto.
  - intros e [].
  - split; reflexivity.
  - apply proper_a.
  - unfold kdb1, save4. rewrite E. auto.
Qed.
Lemma sound2 : sound no_index kdb2 /\ weights_numbers (k_graph no_index kdb2).
Proof.
  destruct sound1 as [S1 W1]. destruct (dim2 kdb1 "other" S1 ltac:(discriminate)) as [d Hd].
  destruct (knowledge_saved_exact no_index as_is same same one_vec split4 ids_text as_stored str_sort fine_kv kdb1 save_b 120 0 "other" d as_is_perm as_stored_order (ex_sort_ok _) storable1 S1 calm1) as (k' & a & E & S & W & _); auto.
  - split; reflexivity.
  - apply proper_b.
  - unfold kdb2, save4. rewrite E. auto.
Qed.

(** Saving "a" with two entities and a relation between them. *)
Example knowledge_saved_ex :
  sound no_index kdb0 /\ calm fine_kv /\ storable one_vec /\ chunk_options (ks_size save_a) (ks_overlap save_a) 120 0 /\
  proper same (ks_id save_a) (ks_content save_a) (split4 (ks_content save_a) 120 0) (ks_meta save_a) (ks_ents save_a) (ks_rels save_a) /\
  text_dimension no_index (k_store no_index kdb0) "graphrag_chunks" 2 /\
  get4 kdb1 "a" = Ok {| kr_id := "a"; kr_title := "T"; kr_content := "AdaxBobx"; kr_url := "u"; kr_author := "w"; kr_coll := "graphrag_chunks"; kr_meta := Some [("k", "v")];
                        kr_chunks := ["chunk:a:000"; "chunk:a:001"]; kr_ents := ["Ada"; "Bob"] |} /\
  map n_id (g_nodes (k_graph no_index kdb1)) = ["doc:a"; "chunk:a:000"; "chunk:a:001"; "entity:Ada"; "entity:Bob"] /\
  map ge_id (g_edges (k_graph no_index kdb1)) =
    ["edge:doc_chunk:a:0"; "edge:doc_chunk:a:1"; "edge:chunk_next:a:1"; "edge:mention:chunk:a:000:entity:Ada"; "edge:mention:chunk:a:001:entity:Bob"; "edge:relation:entity:Ada:entity:Bob:related_to:0"].
Proof.
  split; [apply sound0|]. split; [apply calm1|]. split; [apply storable1|]. split; [split; reflexivity|]. split; [apply proper_a|]. split; [right; split; [discriminate|reflexivity]|].
  split; [vm_compute; reflexivity|]. split; vm_compute; reflexivity.
Qed.
Example knowledge_read_ex :
  sound no_index kdb1 /\ weights_numbers (k_graph no_index kdb1) /\ (forall c, in_doc no_index (k_store no_index kdb1) "a" c -> at_most (k_graph no_index kdb1) 1 32 c) /\
  (exists x, get_document no_index (k_store no_index kdb1) "a" = Ok x /\ d_version x = 1%Z).
Proof.
  destruct sound1 as [S W]. split; [exact S|]. split; [exact W|]. split; [intros c _; apply ToolGraphProps2.small_at_most; [apply (reach_fine _ (proj2 (proj2 S)))|vm_compute; discriminate]|]. eexists. split; [vm_compute; reflexivity|reflexivity].
Qed.
(** Deleting "a" beside "b". *)
Definition kdb3 : kdb no_index := fst (delete_knowledge no_index as_is true fine_kv kdb2 "a").
Example knowledge_deleted_ex :
  sound no_index kdb2 /\ get_document no_index (k_store no_index kdb2) "a" <> Err ENotFound /\ get4 kdb3 "a" = Err ENotFound /\
  map n_id (g_nodes (k_graph no_index kdb3)) = ["entity:Ada"; "entity:Bob"; "doc:b"; "chunk:b:000"] /\
  get4 kdb3 "b" = get4 kdb2 "b" /\ (exists r, get4 kdb2 "b" = Ok r /\ kr_coll r = "other").
Proof.
  split; [apply sound2|]. split; [vm_compute; discriminate|]. split; [vm_compute; reflexivity|]. split; [vm_compute; reflexivity|]. split; [vm_compute; reflexivity|]. eexists. split; [vm_compute; reflexivity|reflexivity].
Qed.
(** Updating the title of "a". *)
Definition retitle : kupdate := {| ku_id := "a"; ku_title := Some "U"; ku_content := None; ku_url := None; ku_author := None; ku_coll := None; ku_size := None; ku_overlap := None; ku_meta := None; ku_ents := []; ku_rels := [] |}.
Definition relink : kupdate := {| ku_id := "a"; ku_title := None; ku_content := None; ku_url := Some "v"; ku_author := None; ku_coll := None; ku_size := None; ku_overlap := None; ku_meta := None; ku_ents := [ada]; ku_rels := [] |}.
Definition kdb4 : kdb no_index := fst (update4 fine_kv kdb1 retitle).
Definition kdb5 : kdb no_index := fst (update4 fine_kv kdb1 relink).
Example knowledge_updated_ex :
  (exists x, get_document no_index (k_store no_index kdb1) "a" = Ok x /\ d_content x = "AdaxBobx" /\ d_meta x = Some [("k", "v")]) /\
  proper same (ku_id retitle) "AdaxBobx" (split4 "AdaxBobx" 120 0) (Some [("k", "v")]) (ku_ents retitle) (ku_rels retitle) /\
  get4 kdb4 "a" = Ok {| kr_id := "a"; kr_title := "U"; kr_content := "AdaxBobx"; kr_url := "u"; kr_author := "w"; kr_coll := "graphrag_chunks"; kr_meta := Some [("k", "v")];
                        kr_chunks := ["chunk:a:000"; "chunk:a:001"]; kr_ents := [] |}.
Proof.
  split; [eexists; split; [vm_compute; reflexivity|split; reflexivity]|]. split; [constructor; try discriminate; try (intros e []); repeat constructor; intros []|]. vm_compute. reflexivity.
Qed.
Example knowledge_touched_ex :
  get4 kdb5 "a" = Ok {| kr_id := "a"; kr_title := "T"; kr_content := "AdaxBobx"; kr_url := "v"; kr_author := "w"; kr_coll := "graphrag_chunks"; kr_meta := Some [("k", "v")];
                        kr_chunks := ["chunk:a:000"; "chunk:a:001"]; kr_ents := ["Ada"; "Bob"] |} /\
  exists x, get_document no_index (k_store no_index kdb5) "a" = Ok x /\ d_version x = 2%Z.
Proof. split; [vm_compute; reflexivity|]. eexists. split; [vm_compute; reflexivity|reflexivity]. Qed.
(** A save that fails at its last statement leaves "b" alone. *)
Example knowledge_save_spares_ex : exists e, snd (save4 (fail_at 11) kdb2 save_a) = Err e /\
  get_document no_index (k_store no_index (fst (save4 (fail_at 11) kdb2 save_a))) "b" = get_document no_index (k_store no_index kdb2) "b".
Proof. eexists. split; vm_compute; reflexivity. Qed.

(** A save that reports an error leaves the knowledge as it was — refuted: the old knowledge is
    removed before the new one is written. *)
Theorem knowledge_replace_atomic_refuted : exists kv (k : kdb no_index) q e r,
  sound no_index k /\ weights_numbers (k_graph no_index k) /\ (forall i, ev_fk (kv i) = true) /\ get4 k (ks_id q) = Ok r /\
  snd (save4 kv k q) = Err e /\ get4 (fst (save4 kv k q)) (ks_id q) = Err ENotFound.
Proof.
  exists (fail_at 3), kdb1, save_a. eexists. eexists. destruct sound1 as [S W]. split; [exact S|]. split; [exact W|]. split; [reflexivity|]. split; [vm_compute; reflexivity|]. split; vm_compute; reflexivity.
Qed.
Print Assumptions knowledge_replace_atomic_refuted.
(** An update of the title keeps the links to entities — refuted. *)
Theorem knowledge_title_update_keeps_entities_refuted : exists (k : kdb no_index) q r r',
  sound no_index k /\ weights_numbers (k_graph no_index k) /\ ku_content q = None /\ ku_meta q = None /\ get4 k (ku_id q) = Ok r /\ kr_ents r = ["Ada"; "Bob"] /\
  get4 (fst (update4 fine_kv k q)) (ku_id q) = Ok r' /\ kr_ents r' = [].
Proof.
  exists kdb1, retitle. eexists. eexists. destruct sound1 as [S W]. split; [exact S|]. split; [exact W|]. split; [reflexivity|]. split; [reflexivity|]. split; [vm_compute; reflexivity|]. split; [reflexivity|]. split; [vm_compute; reflexivity|reflexivity].
Qed.
Print Assumptions knowledge_title_update_keeps_entities_refuted.
(** Saving again keeps who may read the document — refuted: the access list is lost. *)
Definition secret_store : store no_index :=
  run no_index (new_store 2 SmartAdapt) [good (OCreateDoc {| d_id := "a"; d_title := "t"; d_url := ""; d_content := "c"; d_version := 1; d_author := ""; d_meta := None; d_acl := ["user:ada"] |})].
Definition secret_kdb : kdb no_index := {| k_store := secret_store; k_graph := new_graph |}.
Theorem knowledge_save_keeps_acl_refuted : exists (k : kdb no_index) q x x',
  sound no_index k /\ get_document no_index (k_store no_index k) (ks_id q) = Ok x /\ d_acl x = ["user:ada"] /\
  (exists a, snd (save4 fine_kv k q) = Ok a) /\ get_document no_index (k_store no_index (fst (save4 fine_kv k q))) (ks_id q) = Ok x' /\ d_acl x' = [].
Proof.
  exists secret_kdb, save_a. eexists. eexists. split.
  { split; [apply (reach_step no_index fk_env (new_store 2 SmartAdapt) good_env _); [apply (reach_new no_index fk_env 2 SmartAdapt tt); reflexivity|reflexivity]|]. split; [reflexivity|constructor]. }
  split; [vm_compute; reflexivity|]. split; [reflexivity|]. split; [eexists; vm_compute; reflexivity|]. split; [vm_compute; reflexivity|reflexivity].
Qed.
Print Assumptions knowledge_save_keeps_acl_refuted.
(** An update that reports an error leaves the knowledge as it was, though no statement fails
    — refuted: an update without content of a document whose content is blank removes it. *)
Definition blank_store : store no_index := run no_index (new_store 2 SmartAdapt) [good (OCreateDoc (doc1 "a"))].
Definition blank_kdb : kdb no_index := {| k_store := blank_store; k_graph := new_graph |}.
Theorem knowledge_blank_update_refuted : exists (k : kdb no_index) q e x,
  sound no_index k /\ get_document no_index (k_store no_index k) (ku_id q) = Ok x /\
  snd (update4 fine_kv k q) = Err e /\ get_document no_index (k_store no_index (fst (update4 fine_kv k q))) (ku_id q) = Err ENotFound.
Proof.
  exists blank_kdb, retitle. eexists. eexists. split.
  { split; [apply (reach_step no_index fk_env (new_store 2 SmartAdapt) good_env _); [apply (reach_new no_index fk_env 2 SmartAdapt tt); reflexivity|reflexivity]|]. split; [reflexivity|constructor]. }
  split; [vm_compute; reflexivity|]. split; vm_compute; reflexivity.
Qed.
Print Assumptions knowledge_blank_update_refuted.
(** Deleting knowledge removes the relations saved with it — refuted. *)
Theorem knowledge_delete_relations_refuted : exists (k k' : kdb no_index) id x,
  sound no_index k /\ delete_knowledge no_index as_is true fine_kv k id = (k', Ok tt) /\ In x (g_edges (k_graph no_index k')) /\ ge_props x = Some [("document_id", id)].
Proof.
  assert (H : snd (delete_knowledge no_index as_is true fine_kv kdb2 "a") = Ok tt) by (vm_compute; reflexivity).
  assert (Hx : exists x, hd_error (g_edges (k_graph no_index kdb3)) = Some x /\ ge_props x = Some [("document_id", "a")]) by (eexists; split; vm_compute; reflexivity).
  destruct Hx as (x & Hx & Hp). exists kdb2, kdb3, "a", x. split; [apply sound2|]. split; [|split; [|exact Hp]].
  - revert H. unfold kdb3. generalize (delete_knowledge no_index as_is true fine_kv kdb2 "a") as p. intros [k r] H. cbn [snd fst] in *. rewrite H. reflexivity.
  - revert Hx. generalize (g_edges (k_graph no_index kdb3)) as l. intros [|y l]; cbn [hd_error]; [discriminate|]. intros [= <-]. left. reflexivity.
Qed.
Print Assumptions knowledge_delete_relations_refuted.
