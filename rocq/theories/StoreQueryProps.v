(** C69, C70: document records and the listing calls, for every history. *)
From Coq Require Import String List NArith ZArith Bool Permutation.
From Verif Require Import Base DimensionModel StoreModel StoreSpec StoreInv StoreProofs2 StoreProofs3 StoreProps StoreQuerySpec StoreQueryProofs.
Import ListNotations.
Open Scope string_scope.
Open Scope list_scope.

(** ** C69: what readers see after every operation is given by [doc_after]. *)
Theorem documents_refine :
  forall I ev s o id, get_document I (fst (step I ev s o)) id = doc_after I s o (snd (step I ev s o)) id.
Proof. exact documents_lemma. Qed.
Definition titled (id t : string) : document :=
  {| d_id := id; d_title := t; d_url := "u"; d_content := "c"; d_version := 2; d_author := "au"; d_meta := Some [("a", "b")]; d_acl := ["g"] |}.
Definition library : store no_index :=
  run no_index (new_store 2 SmartAdapt)
    [good (OCreateDoc (doc1 "d")); good (OCreateDoc (doc1 "e")); good (OUpdateDoc (titled "d" "new")); good (OCreateDoc (titled "d" "dup"));
     good (ODeleteDoc "e"); good (OCreateDoc (titled "f" "x")); good (OCreateColl "c" 2);
     good (OUpsert (emb_in "a" "c" "d" one_half)); good (OUpsert (emb_in "b" "c" "d" one_half)); good (OUpsert (emb_in "z" "" "f" one_half))].
Example documents_refine_ex :
  get_document no_index library "d" = Ok (titled "d" "new") /\ get_document no_index library "e" = Err ENotFound /\
  get_document no_index library "f" = Ok (titled "f" "x").
Proof. vm_compute. auto. Qed.
Theorem create_document_accepts_new :
  forall I ev s x, st_closed I s = false -> ev_ok ev 0 = true ->
  (snd (step I ev s (OCreateDoc x)) = Ok tt <-> get_document I s (d_id x) = Err ENotFound).
Proof. exact create_doc_succeeds. Qed.
Theorem update_document_accepts_existing :
  forall I ev s x, st_closed I s = false -> ev_ok ev 0 = true ->
  (snd (step I ev s (OUpdateDoc x)) = Ok tt <-> exists y, get_document I s (d_id x) = Ok y).
Proof. exact update_doc_succeeds. Qed.
Example document_accept_ex :
  st_closed no_index library = false /\
  snd (step no_index good_env library (OCreateDoc (doc1 "d"))) = Err EOther /\
  snd (step no_index good_env library (OCreateDoc (doc1 "e"))) = Ok tt /\
  snd (step no_index good_env library (OUpdateDoc (doc1 "e"))) = Err ENotFound.
Proof. vm_compute. auto. Qed.

(** ** C70 *)
Lemma library_reachable : reachable no_index any_env library.
Proof. apply reachable_run; [|repeat constructor]. eapply (reach_new no_index _ 2%Z SmartAdapt tt). reflexivity. Qed.

Theorem get_by_doc_exact :
  forall I envs by_time s x, (forall l, Permutation l (by_time l)) -> reachable I envs s -> st_closed I s = false -> x <> "" ->
  exists es, get_by_doc I by_time s x = Ok es /\ lists_blank I s (fun e => e_doc e = x) es.
Proof. exact get_by_doc_lemma. Qed.
Theorem get_by_type_exact :
  forall I envs by_time s ty, (forall l, Permutation l (by_time l)) -> reachable I envs s -> st_closed I s = false -> ty <> "" ->
  exists es, get_by_type I by_time s ty = Ok es /\ lists_blank I s (fun e => exists m, e_meta e = Some m /\ assoc "type" m = Some ty) es.
Proof. exact get_by_type_lemma. Qed.
Theorem list_documents_exact :
  forall I envs srt s, (forall l, Permutation l (srt l)) -> reachable I envs s -> st_closed I s = false ->
  exists ds, list_documents I srt s = Ok ds /\ NoDup ds /\
    forall x, In x ds <-> x <> "" /\ exists id e, get_by_id I s id = Ok e /\ e_doc e = x.
Proof. exact list_documents_lemma. Qed.
Theorem list_documents_info_exact :
  forall I envs srt s, (forall l, Permutation l (srt l)) -> reachable I envs s -> st_closed I s = false ->
  exists ds, list_documents_info I srt s = Ok ds /\ NoDup (map fst ds) /\
    (forall x n, In (x, n) ds -> x <> "" /\ (0 < n)%Z /\ counts I s (fun e => e_doc e = x) (Z.to_nat n)) /\
    (forall id e, get_by_id I s id = Ok e -> e_doc e <> "" -> In (e_doc e) (map fst ds)).
Proof. exact list_info_lemma. Qed.
Theorem collection_stats_count :
  forall I envs s name, reachable I envs s -> st_closed I s = false -> name <> "" ->
  (forall n size, collection_stats I s name = Ok (n, size) ->
     (exists c, get_collection I s name = Ok c) /\ (0 <= n)%Z /\ counts I s (fun e => e_coll e = name) (Z.to_nat n)) /\
  (forall c, get_collection I s name = Ok c -> exists n size, collection_stats I s name = Ok (n, size)).
Proof. exact stats_lemma. Qed.
Theorem list_collections_exact :
  forall I envs newest_first s, (forall l, Permutation l (newest_first l)) -> reachable I envs s -> st_closed I s = false ->
  exists cs, list_collections I newest_first s = Ok cs /\ NoDup (map c_name cs) /\
    forall c, In c cs <-> get_collection I s (c_name c) = Ok c.
Proof. exact list_collections_lemma. Qed.
Theorem list_documents_with_filter_exact :
  forall I envs newest_first s author limit, (forall l, Permutation l (newest_first l)) -> reachable I envs s -> st_closed I s = false ->
  exists all, NoDup (map d_id all) /\
    (forall x, In x all <-> get_document I s (d_id x) = Ok x /\ (author = "" \/ d_author x = author)) /\
    list_documents_with_filter I newest_first s author limit = Ok (if (limit <? 0)%Z then all else firstn (Z.to_nat limit) all).
Proof. exact list_filter_lemma. Qed.
Example listings_ex :
  reachable no_index any_env library /\ st_closed no_index library = false /\
  list_documents_info no_index (fun l => l) library = Ok [("d", 2%Z); ("f", 1%Z)] /\
  list_documents no_index (fun l => l) library = Ok ["d"; "f"] /\
  (match get_by_doc no_index (fun l => l) library "d" with Ok es => map e_id es | _ => [] end) = ["a"; "b"] /\
  collection_stats no_index library "c" = Ok (2%Z, 24%Z) /\
  (match list_collections no_index (@rev _) library with Ok cs => map c_name cs | _ => [] end) = ["c"; "default"] /\
  (match list_documents_with_filter no_index (@rev _) library "au" 1 with Ok ds => map d_id ds | _ => [] end) = ["f"].
Proof. split; [exact library_reachable|]. vm_compute. repeat split; reflexivity. Qed.

Print Assumptions documents_refine.
Print Assumptions create_document_accepts_new.
Print Assumptions update_document_accepts_existing.
Print Assumptions get_by_doc_exact.
Print Assumptions get_by_type_exact.
Print Assumptions list_documents_exact.
Print Assumptions list_documents_info_exact.
Print Assumptions collection_stats_count.
Print Assumptions list_collections_exact.
Print Assumptions list_documents_with_filter_exact.
