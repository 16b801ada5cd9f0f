(** Model of how the exported methods of the store use its read-write mutex SQLiteStore.mu
    (/repo/pkg/core/store.go:20-40) and of sync.RWMutex itself, under arbitrary schedules
    of any number of concurrent calls.
    RWMutex: a reader enters when no writer holds the lock or waits for it; a writer first
    announces itself (from then on no new reader enters), then enters when the readers
    inside have left. Which of several waiting writers announces itself first, and whether
    readers released by Unlock enter before it, is left to the schedule. Locks other than
    this mutex (those inside the indexes, the logger, the save timer and the database
    pool) are taken for short sections in which no method of the store is called; they are
    not modelled. *)
From Coq Require Import List Arith Bool.
Import ListNotations.

(** RLock, RUnlock, Lock, Unlock. *)
Inductive action := RL | RU | WL | WU.

(** *** The mutex *)
Inductive writer := Free | Pending (i : nat) | Held (i : nat).
(** Readers inside, writer, and what every call has left to do. *)
Record lstate := { l_readers : nat; l_writer : writer; l_calls : list (list action) }.

Fixpoint set_nth {A} (i : nat) (x : A) (l : list A) : list A :=
  match i, l with
  | _, [] => []
  | O, _ :: t => x :: t
  | S k, y :: t => y :: set_nth k x t
  end.

(** One step of call [i]; the state is unchanged when it has to wait. *)
Definition lock_step (i : nat) (s : lstate) : lstate :=
  match nth i (l_calls s) [] with
  | [] => s
  | RL :: r => match l_writer s with
               | Free => {| l_readers := S (l_readers s); l_writer := Free; l_calls := set_nth i r (l_calls s) |}
               | _ => s
               end
  | RU :: r => match l_readers s with
               | O => s
               | S n => {| l_readers := n; l_writer := l_writer s; l_calls := set_nth i r (l_calls s) |}
               end
  | WL :: r => match l_writer s with
               | Free => {| l_readers := l_readers s; l_writer := Pending i; l_calls := l_calls s |}
               | Pending j => if Nat.eqb i j && Nat.eqb (l_readers s) 0
                              then {| l_readers := 0; l_writer := Held i; l_calls := set_nth i r (l_calls s) |} else s
               | Held _ => s
               end
  | WU :: r => match l_writer s with
               | Held j => if Nat.eqb i j then {| l_readers := l_readers s; l_writer := Free; l_calls := set_nth i r (l_calls s) |} else s
               | _ => s
               end
  end.
Definition lock_run (sched : list nat) (s : lstate) : lstate := fold_left (fun s i => lock_step i s) sched s.
Definition lock_init (calls : list (list action)) : lstate := {| l_readers := 0; l_writer := Free; l_calls := calls |}.

(** *** The methods of the store *)
Inductive call :=
| GetByID | GetByDocID | ListDocuments | ListDocumentsWithInfo | GetDocumentsByType | Delete | DeleteByDocID | Clear | ClearByDocID
| GetCollection | ListCollections | CreateDocument | GetDocument | UpdateDocument | ListDocumentsWithFilter | Config | Stats
| CreateSession | GetSession | AddMessage | GetSessionHistory | SearchChatHistory | KeywordSearchMessages | SearchMessagesByUser
| SearchWithAdvancedFilter | SearchWithACL | SearchWithNegatives | FindAnomalies | Aggregate | SearchWithFacets | RangeSearch
| ExportIndex | Backup | GetMultiVectorEntity | StreamSearch | AutoSave
| Search | SearchWithFilter
| RecommendSimilar | BatchRangeSearch | ParallelStreamSearch
| GetCollectionStats | HybridSearch | SearchWithDiversity | SearchWithReranker | SearchMultiVector | Dump | DumpToFile
| UpsertBatch | Upsert | LoadAll | LoadFromFile
| CreateCollection | DeleteCollection | DeleteDocument | ImportIndex | UpsertMultiVector | DeleteMultiVectorEntity | SetLogger | SetAutoDimAdapt
| CloseStore | DeleteBatch | DeleteByFilter | TrainIndex | InitStore
| TrainQuantizer.

Definition read : list action := [RL; RU].
Definition write : list action := [WL; WU].
Definition inside (p : list action) : list action := RL :: p ++ [RU].

(** Repetitions of a path. *)
Inductive many (P : list action -> Prop) : list action -> Prop :=
| many_nil : many P []
| many_app p q : P p -> many P q -> many P (p ++ q).

(** The sequences of mutex operations Upsert can perform, store_crud.go:15-158: line
    16-18; 28-52 when the dimension is not known yet; 87-88, with GetCollection (95) inside
    when the embedding names its collection. It may return after the first two. *)
Inductive upsert_path : list action -> Prop :=
| up_closed : upsert_path read
| up_refused : upsert_path (read ++ write)
| up_plain : upsert_path (read ++ read)
| up_named : upsert_path (read ++ inside read)
| up_first : upsert_path (read ++ write ++ read)
| up_first_named : upsert_path (read ++ write ++ inside read).
(** Search and SearchWithFilter, store_search.go:16-18 and 36-37, 65-67 and 85-86. *)
Inductive search_path : list action -> Prop :=
| se_refused : search_path read
| se_full : search_path (read ++ read).
(** processImportEmbedding, io.go:351-366: GetByID (354) when existing ids are skipped, then Upsert. *)
Inductive import_path : list action -> Prop :=
| im_known : import_path read
| im_checked p : upsert_path p -> import_path (read ++ p)
| im_plain p : upsert_path p -> import_path p.
(** Dump, io.go:77-104: JSON asks for Stats (109) while inside. *)
Inductive dump_path : list action -> Prop :=
| du_plain : dump_path read
| du_json : dump_path (inside read).

(** All paths of every method, with its source lines:
    one read section: store_query.go 15, 53, 94, 130, 187; store_crud.go 318, 362, 536, 555;
    collections.go 109, 157; document.go 27, 59, 136, 178; store.go 101, 108; chat.go 35, 54, 79,
    114, 161, 225, 259; advanced_filter.go 524; advanced_search.go 25, 280, 588;
    aggregations.go 51; faceted_search.go 78, 338; io.go 399, 475; multi_vector.go 258;
    streaming.go 30; store_index.go 480;
    sequences of those: advanced_search.go 556-585, faceted_search.go 398-412, streaming.go 125-140;
    with a method inside: collections.go 268 and 276; advanced_search.go 60 and 71, 343 and 354;
    reranker.go 49 and 58, 68; multi_vector.go 120 and 153; store_crud.go 162 and 236;
    write section: collections.go 34, 217; document.go 98; io.go 433; multi_vector.go 54, 336; store.go 77, 84;
    store_close.go 10; store_crud.go 383, 470; store_index.go 217; store_init.go 14;
    none: store_index.go 311 (TrainQuantizer). *)
Definition path (c : call) (p : list action) : Prop :=
  match c with
  | GetByID | GetByDocID | ListDocuments | ListDocumentsWithInfo | GetDocumentsByType | Delete | DeleteByDocID | Clear | ClearByDocID
  | GetCollection | ListCollections | CreateDocument | GetDocument | UpdateDocument | ListDocumentsWithFilter | Config | Stats
  | CreateSession | GetSession | AddMessage | GetSessionHistory | SearchChatHistory | KeywordSearchMessages | SearchMessagesByUser
  | SearchWithAdvancedFilter | SearchWithACL | SearchWithNegatives | FindAnomalies | Aggregate | SearchWithFacets | RangeSearch
  | ExportIndex | Backup | GetMultiVectorEntity | StreamSearch | AutoSave => p = read
  | Search | SearchWithFilter => search_path p
  | RecommendSimilar | BatchRangeSearch | ParallelStreamSearch => many (fun q => q = read) p
  | GetCollectionStats => p = read \/ p = inside read
  | HybridSearch | SearchWithDiversity | SearchWithReranker => p = read \/ exists q, search_path q /\ p = inside q
  | SearchMultiVector => exists q, many search_path q /\ p = inside q
  | Dump => dump_path p
  | DumpToFile => p = [] \/ dump_path p
  | UpsertBatch => exists q, many (fun r => r = read) q /\ p = inside q
  | Upsert => upsert_path p
  | LoadAll | LoadFromFile => many import_path p
  | CreateCollection | DeleteCollection | DeleteDocument | ImportIndex | UpsertMultiVector | DeleteMultiVectorEntity | SetLogger | SetAutoDimAdapt
  | CloseStore | DeleteBatch | TrainIndex | InitStore => p = write
  | DeleteByFilter => p = [] \/ p = write
  | TrainQuantizer => p = []
  end.
