(** Model of /repo/pkg/cortexdb/memory_api.go: memories kept as messages of bucket
    sessions.

    Metadata is kept decoded: the reserved keys as fields, the caller's other keys as a
    map of strings; ttl_seconds survives JSON exactly up to 2^53. Times are nanoseconds
    since 1970. Reads do not fail. strings.TrimSpace, strings.ToLower, the planning of
    lexical queries (graphrag_tools.go:1278-1316) and the full-text index are
    parameters. *)
From Coq Require Import String List NArith ZArith Bool.
From Coq Require Import Floats.SpecFloat.
From Verif Require Import Base Floats64 EncodingModel StoreModel.
Import ListNotations.
Open Scope string_scope.
Open Scope list_scope.

(** The metadata of a memory, memory_api.go:439-452. *)
Record mmeta := { mm_scope : string; mm_ns : string; mm_importance : float; mm_ttl : Z; mm_expires : option Z; mm_extra : smap }.
(** A row of messages; a chat message has no memory metadata. *)
Record mem := { me_id : string; me_bucket : string; me_role : string; me_content : string; me_blob : option (list Byte.byte); me_meta : option mmeta; me_time : Z }.
Record memdb := { md_sessions : list (string * string); md_rows : list mem }.

(** MemoryRecord, knowledge_memory_types.go:132-145. *)
Record mrec := { mr_id : string; mr_user : string; mr_session : string; mr_scope : string; mr_ns : string; mr_role : string; mr_content : string;
  mr_importance : float; mr_ttl : Z; mr_expires : option Z; mr_extra : smap; mr_time : Z }.

(** What a call meets: which of its statements succeed, the clock, and the embedder if
    there is one. *)
Record menv := { mv_ok : nat -> bool; mv_now : Z; mv_embed : option (string -> option (list N)) }.

Section Memory.
Variables (trim lower : string -> string).

Definition blank (s : string) : bool := String.eqb (trim s) "".

(** normalizeMemoryNamespace, memory_api.go:431-437. *)
Definition normal_ns (ns : string) : string := if blank ns then "default" else trim ns.

(** resolveMemoryBucket, memory_api.go:396-429: the scope and the bucket. *)
Definition resolve (scope user session ns : string) : option (string * string) :=
  let n := normal_ns ns in
  let s := lower (trim scope) in
  let s := if String.eqb s "" then (if negb (blank session) then "session" else if negb (blank user) then "user" else "global") else s in
  if String.eqb s "global" then Some (s, ("memory:" ++ s ++ ":" ++ n)%string)
  else if String.eqb s "user" then (if blank user then None else Some (s, ("memory:" ++ s ++ ":" ++ user ++ ":" ++ n)%string))
  else if String.eqb s "session" then (if blank session then None else Some (s, ("memory:" ++ s ++ ":" ++ session ++ ":" ++ n)%string))
  else None.

Definition giga : Z := 1000000000.
(** int64 arithmetic of time.Duration. *)
Definition wrap_int64 (z : Z) : Z := ((z + 2 ^ 63) mod 2 ^ 64 - 2 ^ 63)%Z.
(** expires_at, memory_api.go:446-450: RFC 3339 text has whole seconds. *)
Definition expiry (now ttl : Z) : option Z :=
  if Z.ltb 0 ttl then Some ((now + wrap_int64 (ttl * giga)) / giga)%Z else None.

Definition reserved : list string := ["kind"; "scope"; "namespace"; "importance"; "ttl_seconds"; "expires_at"].
(** buildMemoryMetadata, memory_api.go:439-452. *)
Definition build_meta (now : Z) (scope ns : string) (m : smap) (importance : float) (ttl : Z) : mmeta :=
  {| mm_scope := scope; mm_ns := ns; mm_importance := importance; mm_ttl := ttl; mm_expires := expiry now ttl;
     mm_extra := filter (fun kv => negb (StoreModel.mem (fst kv) reserved)) m |}.

(** json.Marshal refuses NaN and the infinities. *)
Definition finite_number (x : float) : bool := match x with S754_nan | S754_infinity _ => false | _ => true end.

(** memoryExpired, memory_api.go:491-496. *)
Definition expired (now : Z) (r : mrec) : bool := match mr_expires r with Some e => Z.ltb (e * giga) now | None => false end.

(** A row read back, memory_api.go:278-301 and 454-475. *)
Definition to_record (user : string) (w : mem) : mrec :=
  let m := me_meta w in
  {| mr_id := me_id w; mr_user := user; mr_session := me_bucket w; mr_role := me_role w; mr_content := me_content w; mr_time := me_time w;
     mr_scope := match m with Some x => mm_scope x | None => "" end;
     mr_ns := match m with Some x => mm_ns x | None => "" end;
     mr_importance := match m with Some x => mm_importance x | None => f_zero end;
     mr_ttl := match m with Some x => mm_ttl x | None => 0%Z end;
     mr_expires := match m with Some x => mm_expires x | None => None end;
     mr_extra := match m with Some x => mm_extra x | None => [] end |}.

(** loadMemoryRow, memory_api.go:262-301: the join with sessions. *)
Definition find_row (db : memdb) (id : string) : option mem := find (fun w => String.eqb (me_id w) id) (md_rows db).
Definition load (db : memdb) (id : string) : outcome (mem * mrec) :=
  if String.eqb id "" then Err EOther
  else match find_row db id with
  | None => Err ENotFound
  | Some w => match assoc (me_bucket w) (md_sessions db) with
              | None => Err ENotFound
              | Some u => Ok (w, to_record u w)
              end
  end.

(** GetMemory, memory_api.go:131-137. *)
Definition get (db : memdb) (id : string) : outcome mrec := bind (load db id) (fun x => Ok (snd x)).

(** embedMemoryContent, memory_api.go:246-260. *)
Definition embed_content (ev : menv) (content : string) : outcome (option (list Byte.byte)) :=
  match mv_embed ev with
  | None => Ok None
  | Some f => match f content with
              | None => Err EOther
              | Some v => bind (encode_vector (Some v)) (fun b => Ok (Some b))
              end
  end.

(** ensureMemoryBucket, memory_api.go:228-244. *)
Definition ensure_bucket (ev : menv) (db : memdb) (b user : string) : option memdb :=
  match assoc b (md_sessions db) with
  | Some _ => Some db
  | None => if mv_ok ev 0 then Some {| md_sessions := md_sessions db ++ [(b, user)]; md_rows := md_rows db |} else None
  end.

(** MemorySaveRequest and MemoryUpdateRequest, knowledge_memory_types.go:148-173. *)
Record save_req := { sv_id : string; sv_user : string; sv_session : string; sv_scope : string; sv_ns : string; sv_role : string; sv_content : string;
  sv_meta : smap; sv_importance : float; sv_ttl : Z }.
Record update_req := { up_id : string; up_content : option string; up_meta : smap; up_importance : option float; up_ttl : option Z }.

(** INSERT … ON CONFLICT(id) DO UPDATE, memory_api.go:51-60: created_at is kept. *)
Definition put_row (rows : list mem) (w : mem) : list mem :=
  if existsb (fun x => String.eqb (me_id x) (me_id w)) rows
  then map (fun x => if String.eqb (me_id x) (me_id w)
                     then {| me_id := me_id x; me_bucket := me_bucket w; me_role := me_role w; me_content := me_content w; me_blob := me_blob w;
                             me_meta := me_meta w; me_time := me_time x |}
                     else x) rows
  else rows ++ [w].

(** SaveMemory, memory_api.go:24-69. *)
Definition save (ev : menv) (db : memdb) (r : save_req) : memdb * outcome mrec :=
  if String.eqb (sv_id r) "" then (db, Err EOther)
  else if blank (sv_content r) then (db, Err EEmptyQuery)
  else match resolve (sv_scope r) (sv_user r) (sv_session r) (sv_ns r) with
  | None => (db, Err EOther)
  | Some (scope, b) =>
      match ensure_bucket ev db b (sv_user r) with
      | None => (db, Err EOther)
      | Some db1 =>
          match embed_content ev (sv_content r) with
          | Ok blob =>
              if finite_number (sv_importance r) && mv_ok ev 1 then
                let w := {| me_id := sv_id r; me_bucket := b; me_role := if blank (sv_role r) then "user" else sv_role r; me_content := sv_content r;
                            me_blob := blob; me_meta := Some (build_meta (mv_now ev) scope (normal_ns (sv_ns r)) (sv_meta r) (sv_importance r) (sv_ttl r));
                            me_time := mv_now ev |} in
                let db2 := {| md_sessions := md_sessions db1; md_rows := put_row (md_rows db1) w |} in
                (db2, bind (load db2 (sv_id r)) (fun x => Ok (snd x)))
              else (db1, Err EOther)
          | Err e => (db1, Err e)
          | Panic => (db1, Panic)
          end
      end
  end.

(** UpdateMemory, memory_api.go:72-128. *)
Definition merge_meta (old new : smap) : smap := new ++ filter (fun kv => negb (existsb (String.eqb (fst kv)) (map fst new))) old.
Definition update (ev : menv) (db : memdb) (r : update_req) : memdb * outcome mrec :=
  if String.eqb (up_id r) "" then (db, Err EOther)
  else match load db (up_id r) with
  | Ok (w, c) =>
      let body := match up_content r with
                  | None => Ok (me_content w, me_blob w)
                  | Some t => if blank t then Err EEmptyQuery else bind (embed_content ev t) (fun b => Ok (t, b))
                  end in
      match body with
      | Ok (content, blob) =>
          let imp := match up_importance r with Some x => x | None => mr_importance c end in
          let ttl := match up_ttl r with Some x => x | None => mr_ttl c end in
          if finite_number imp && mv_ok ev 0 then
            let m := build_meta (mv_now ev) (mr_scope c) (mr_ns c) (merge_meta (mr_extra c) (up_meta r)) imp ttl in
            let db2 := {| md_sessions := md_sessions db;
                          md_rows := map (fun x => if String.eqb (me_id x) (up_id r)
                                     then {| me_id := me_id x; me_bucket := me_bucket x; me_role := me_role x; me_content := content; me_blob := blob;
                                             me_meta := Some m; me_time := me_time x |} else x) (md_rows db) |} in
            (db2, bind (load db2 (up_id r)) (fun x => Ok (snd x)))
          else (db, Err EOther)
      | Err e => (db, Err e)
      | Panic => (db, Panic)
      end
  | Err e => (db, Err e)
  | Panic => (db, Panic)
  end.

(** DeleteMemory, memory_api.go:182-202. *)
Definition delete (ev : menv) (db : memdb) (id : string) : memdb * outcome unit :=
  if String.eqb id "" then (db, Err EOther)
  else match load db id with
  | Ok (w, _) =>
      if negb (mv_ok ev 0) then (db, Err EOther)
      else
        let rows := filter (fun x => negb (String.eqb (me_id x) id)) (md_rows db) in
        let db1 := {| md_sessions := md_sessions db; md_rows := rows |} in
        if negb (mv_ok ev 1) then (db1, Err EOther)
        else if existsb (fun x => String.eqb (me_bucket x) (me_bucket w)) rows then (db1, Ok tt)
        else ({| md_sessions := filter (fun s => negb (String.eqb (fst s) (me_bucket w))) (md_sessions db); md_rows := rows |}, Ok tt)
  | Err e => (db, Err e)
  | Panic => (db, Panic)
  end.

(** A chat session and message written by other parts of the library (chat.go:34-110):
    refused when the id is taken or the session is missing. *)
Definition chat_session (db : memdb) (id user : string) : memdb :=
  match assoc id (md_sessions db) with Some _ => db | None => {| md_sessions := md_sessions db ++ [(id, user)]; md_rows := md_rows db |} end.
Definition chat_message (db : memdb) (w : mem) : memdb :=
  match assoc (me_bucket w) (md_sessions db) with
  | None => db
  | Some _ => if existsb (fun x => String.eqb (me_id x) (me_id w)) (md_rows db) then db
              else {| md_sessions := md_sessions db;
                      md_rows := md_rows db ++ [{| me_id := me_id w; me_bucket := me_bucket w; me_role := me_role w; me_content := me_content w;
                                                   me_blob := me_blob w; me_meta := None; me_time := me_time w |}] |}
  end.

(** * SearchMemory *)
(** MemorySearchRequest: [mq_lexical] stands for RetrievalMode. *)
Record search_req := { mq_query : string; mq_user : string; mq_session : string; mq_scope : string; mq_ns : string; mq_topk : Z; mq_lexical : bool;
  mq_keywords : list string; mq_alternates : list string }.
Definition mhit := (mrec * float)%type.

(** SearchChatHistory, chat.go:160-219, on the bucket's rows. *)
Definition mem_vec (w : mem) : list N :=
  match me_blob w with Some (b :: bs) => match decode_vector (b :: bs) with Ok v => v | _ => [] end | _ => [] end.
Definition has_vec (w : mem) : bool := match me_blob w with Some (_ :: _) => true | _ => false end.
Definition by_sim (a b : mem * float) : bool := fgt (snd a) (snd b).
Definition nearest (sim : list N -> list N -> float) (db : memdb) (qv : list N) (b : string) (k : nat) : list mem :=
  map fst (firstn k (ex_sort by_sim (map (fun w => (w, f32_of_f64 (sim qv (mem_vec w))))
    (filter has_vec (filter (fun w => String.eqb (me_bucket w) b) (md_rows db)))))).

(** The semantic branch, memory_api.go:154-173: score (n-i)/n for the i-th of n. *)
Definition semantic_hits (now : Z) (ms : list mem) : list mhit :=
  let n := length ms in
  filter (fun h => negb (expired now (fst h)))
    (map (fun iw => (to_record "" (snd iw), f64_div (f64_of_Z (Z.of_nat (n - fst iw))) (f64_of_Z (Z.of_nat n)))) (List.combine (seq 0 n) ms)).

(** [fts q contents]: the full-text index's answer, best first with its rank, or an
    error for a query it does not accept. *)
Variable fts : string -> list string -> option (list (nat * float)).
(** lexicalSearchQueries, graphrag_tools.go:1278-1316. *)
Variable plan : string -> list string -> list string -> list string.

(** One query's rows, memory_api.go:319-328. *)
Definition lexical_rows (db : memdb) (b : string) (k : Z) (ans : list (nat * float)) : list (mrec * float) :=
  firstn (Z.to_nat (k * 4))
    (flat_map (fun pr => match nth_error (md_rows db) (fst pr) with
       | Some w => if String.eqb (me_bucket w) b
                   then match assoc b (md_sessions db) with Some u => [(to_record u w, snd pr)] | None => [] end
                   else []
       | None => []
       end) ans).

(** The weight of the idx-th query and the score of a row, memory_api.go:356-360. *)
Definition query_weight (idx : nat) : float :=
  let w := f64_sub (f64_of_Z 1) (f64_mul (f64_of_Z (Z.of_nat idx)) (f64_div (f64_of_Z 5) (f64_of_Z 100))) in
  if flt w (f64_div (f64_of_Z 8) (f64_of_Z 10)) then f64_div (f64_of_Z 8) (f64_of_Z 10) else w.
Definition lexical_score (idx : nat) (rank : float) : float :=
  f64_mul (f64_div (f64_of_Z 1) (f64_add (f64_of_Z 1) (SFabs rank))) (query_weight idx).

(** merged[record.ID], memory_api.go:361-363: the better score wins. *)
Fixpoint merge_hit (m : list mhit) (h : mhit) : list mhit :=
  match m with
  | [] => [h]
  | x :: m' => if String.eqb (mr_id (fst x)) (mr_id (fst h)) then (if fgt (snd h) (snd x) then h :: m' else x :: m') else x :: merge_hit m' h
  end.
Definition merge_rows (now : Z) (idx : nat) (rows : list (mrec * float)) (m : list mhit) : list mhit :=
  fold_left (fun m rr => if expired now (fst rr) then m else merge_hit m (fst rr, lexical_score idx (snd rr))) rows m.
Fixpoint merge_queries (now : Z) (db : memdb) (b : string) (k : Z) (idx : nat) (qs : list string) (m : list mhit) (failed : bool) : list mhit * bool :=
  match qs with
  | [] => (m, failed)
  | q :: qs' => match fts q (map me_content (md_rows db)) with
                | None => merge_queries now db b k (S idx) qs' m true
                | Some ans => merge_queries now db b k (S idx) qs' (merge_rows now idx (lexical_rows db b k ans) m) failed
                end
  end.
(** The comparison of sort.Slice, memory_api.go:377-382. *)
Definition by_hit (a b : mhit) : bool :=
  if feq (snd a) (snd b) then String.ltb (mr_id (fst a)) (mr_id (fst b)) else fgt (snd a) (snd b).

(** searchMemoryLexical, memory_api.go:303-394; [ord] is the order of the map. *)
Definition search_lexical (ord srt : list mhit -> list mhit) (now : Z) (db : memdb) (b : string) (r : search_req) (k : Z) : outcome (list mhit) :=
  match plan (mq_query r) (mq_keywords r) (mq_alternates r) with
  | [] => Err EEmptyQuery
  | qs => let (m, failed) := merge_queries now db b k 0 qs [] false in
          if (match m with [] => true | _ => false end) && failed then Err EOther
          else Ok (firstn (Z.to_nat k) (srt (ord m)))
  end.

(** SearchMemory, memory_api.go:140-179. *)
Definition search_memory (sim : list N -> list N -> float) (ord srt : list mhit -> list mhit) (ev : menv) (db : memdb) (r : search_req) : outcome (list mhit) :=
  if blank (mq_query r) then Err EEmptyQuery
  else match resolve (mq_scope r) (mq_user r) (mq_session r) (mq_ns r) with
  | None => Err EOther
  | Some (_, b) =>
      let k := if Z.leb (mq_topk r) 0 then 5%Z else mq_topk r in
      let sem := match mv_embed ev with
                 | Some f => if mq_lexical r then [] else
                             match f (mq_query r) with
                             | Some qv => semantic_hits (mv_now ev) (nearest sim db qv b (Z.to_nat k))
                             | None => []
                             end
                 | None => []
                 end in
      match sem with
      | _ :: _ => Ok sem
      | [] => search_lexical ord srt (mv_now ev) db b r k
      end
  end.

(** * Histories *)
Inductive mcall := MSave (r : save_req) | MUpdate (r : update_req) | MDelete (id : string) | MChat (id user : string) | MMessage (w : mem).
Definition mstep (ev : menv) (db : memdb) (c : mcall) : memdb * outcome unit :=
  match c with
  | MSave r => let (db', o) := save ev db r in (db', bind o (fun _ => Ok tt))
  | MUpdate r => let (db', o) := update ev db r in (db', bind o (fun _ => Ok tt))
  | MDelete id => delete ev db id
  | MChat id user => (chat_session db id user, Ok tt)
  | MMessage w => (chat_message db w, Ok tt)
  end.
Definition empty_mem : memdb := {| md_sessions := []; md_rows := [] |}.
(** The state after a history and the outcome of each call. *)
Fixpoint mrun (db : memdb) (h : list (menv * mcall)) : memdb * list (outcome unit) :=
  match h with
  | [] => (db, [])
  | (ev, c) :: h' => let (db1, o) := mstep ev db c in let (db2, os) := mrun db1 h' in (db2, o :: os)
  end.
End Memory.
