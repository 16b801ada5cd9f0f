(** Model of /repo/pkg/core/chat.go: chat sessions and messages. JSON metadata is kept as
    a map of strings. Creation times are integers: SQLite compares the stored texts, whose
    order is that of the times. Sessions and messages are never updated or deleted through
    the API, so the tables only grow. *)
From Coq Require Import String List NArith ZArith Bool.
From Coq Require Import Floats.SpecFloat.
From Verif Require Import Base Floats64 EncodingModel StoreModel.
Import ListNotations.
Open Scope string_scope.
Open Scope list_scope.

(** Session, chat.go:14-20 (without the two times). *)
Record session := { se_id : string; se_user : string; se_meta : option smap }.
(** Message, chat.go:23-31. A nil and an empty vector are the same here. *)
Record message := { g_id : string; g_session : string; g_role : string; g_content : string; g_vec : list N; g_meta : option smap; g_time : Z }.
(** A row of the messages table, store_init.go:129-138. *)
Record mrow := { w_id : string; w_session : string; w_role : string; w_content : string; w_blob : option (list Byte.byte); w_meta : option smap; w_time : Z }.
Record chat := { c_sessions : list session; c_msgs : list mrow; c_closed : bool }.
(** What one call meets: foreign keys enforced on its connection or not, whether the
    statement succeeds, and the clock. *)
Record cenv := { ce_fk : bool; ce_ok : bool; ce_now : Z }.

(** CreateSession, chat.go:34-50; the id is the primary key. *)
Definition create_session (ev : cenv) (c : chat) (x : session) : chat * outcome unit :=
  if c_closed c then (c, Err EClosed)
  else if ce_ok ev && negb (existsb (fun y => String.eqb (se_id y) (se_id x)) (c_sessions c))
       then ({| c_sessions := c_sessions c ++ [x]; c_msgs := c_msgs c; c_closed := false |}, Ok tt)
       else (c, Err EOther).
(** GetSession, chat.go:53-74: no check for a closed store, the query then fails. *)
Definition get_session (c : chat) (id : string) : outcome session :=
  if c_closed c then Err EOther
  else match find (fun y => String.eqb (se_id y) id) (c_sessions c) with Some y => Ok y | None => Err ENotFound end.
(** AddMessage, chat.go:78-110; the message's own CreatedAt is ignored. *)
Definition msg_blob (v : list N) : outcome (option (list Byte.byte)) :=
  match v with [] => Ok None | _ => bind (encode_vector (Some v)) (fun b => Ok (Some b)) end.
Definition add_message (ev : cenv) (c : chat) (m : message) : chat * outcome unit :=
  if c_closed c then (c, Err EClosed)
  else match msg_blob (g_vec m) with
       | Ok blob =>
           if ce_ok ev && negb (existsb (fun y => String.eqb (w_id y) (g_id m)) (c_msgs c)) &&
              (negb (ce_fk ev) || existsb (fun y => String.eqb (se_id y) (g_session m)) (c_sessions c))
           then ({| c_sessions := c_sessions c;
                    c_msgs := c_msgs c ++ [{| w_id := g_id m; w_session := g_session m; w_role := g_role m; w_content := g_content m;
                                              w_blob := blob; w_meta := g_meta m; w_time := ce_now ev |}];
                    c_closed := false |}, Ok tt)
           else (c, Err EOther)
       | _ => (c, Err EOther)
       end.
(** A row read back, chat.go:133-147, 326-343: a vector that cannot be decoded is left
    out. *)
Definition row_vec (w : mrow) : list N :=
  match w_blob w with
  | Some b => match b with [] => [] | _ => match decode_vector b with Ok v => v | _ => [] end end
  | None => []
  end.
Definition read_msg (w : mrow) : message :=
  {| g_id := w_id w; g_session := w_session w; g_role := w_role w; g_content := w_content w; g_vec := row_vec w; g_meta := w_meta w; g_time := w_time w |}.
(** ORDER BY created_at DESC. *)
Definition later (a b : mrow) : bool := Z.ltb (w_time b) (w_time a).
(** LIMIT n: a negative n means no limit. *)
Definition sql_limit {A} (n : Z) (l : list A) : list A := if Z.ltb n 0 then l else firstn (Z.to_nat n) l.
(** GetSessionHistory, chat.go:113-156. *)
Definition session_history (srt : list mrow -> list mrow) (c : chat) (id : string) (n : Z) : outcome (list message) :=
  if c_closed c then Err EOther
  else Ok (rev (map read_msg (sql_limit n (srt (filter (fun w => String.eqb (w_session w) id) (c_msgs c)))))).

(** *** Semantic search over messages *)
Definition by_msg_score (a b : message * float) : bool := fgt (snd a) (snd b).
(** Scoring of the rows with a vector, chat.go:185-201. *)
Definition score_rows (sim : list N -> list N -> float) (q : list N) (rows : list mrow) : list (message * float) :=
  flat_map (fun w => match w_blob w with
                     | Some (_ :: _) => [(read_msg w, f32_of_f64 (sim q (row_vec w)))]
                     | _ => []
                     end) rows.
(** SearchChatHistory, chat.go:160-219: make([]*Message, 0, limit) panics on a negative
    limit. *)
Definition search_chat (sim : list N -> list N -> float) (c : chat) (q : list N) (id : string) (n : Z) : outcome (list message) :=
  if c_closed c then Err EOther
  else if Z.ltb n 0 then Panic
  else Ok (map fst (firstn (Z.to_nat n) (ex_sort by_msg_score (score_rows sim q (filter (fun w => String.eqb (w_session w) id) (c_msgs c)))))).
(** The join of messages with the sessions of a user, chat.go:269-276; [scan] is the order
    in which SQLite produces the rows. *)
Definition user_rows (scan : list mrow -> list mrow) (c : chat) (user exclude : string) : list mrow :=
  scan (flat_map (fun w => map (fun _ => w)
    (filter (fun x => String.eqb (se_id x) (w_session w) && String.eqb (se_user x) user && (String.eqb exclude "" || negb (String.eqb (w_session w) exclude)))
       (c_sessions c))) (c_msgs c)).
(** Rows whose vector cannot be decoded are skipped here, chat.go:295-306. *)
Definition score_user_rows (sim : list N -> list N -> float) (q : list N) (rows : list mrow) : list (message * float) :=
  flat_map (fun w => match w_blob w with
                     | Some (b :: bs) => match decode_vector (b :: bs) with Ok v => [(read_msg w, f32_of_f64 (sim q v))] | _ => [] end
                     | _ => []
                     end) rows.
Definition default_ten (n : Z) : nat := if Z.leb n 0 then 10 else Z.to_nat n.
(** SearchMessagesByUser, chat.go:258-323. *)
Definition search_by_user (sim : list N -> list N -> float) (scan : list mrow -> list mrow) (c : chat) (user : string) (q : list N) (exclude : string) (n : Z)
  : outcome (list message) :=
  if String.eqb user "" || (match q with [] => true | _ => false end) then Ok []
  else if c_closed c then Err EOther
  else Ok (map fst (firstn (default_ten n) (ex_sort by_msg_score (score_user_rows sim q (user_rows scan c user exclude))))).
(** KeywordSearchMessages, chat.go:224-254. [ft query contents] is the answer of the
    full-text index: the positions of the matching messages, best first, or an error for a
    malformed query. *)
Definition keyword_search (ft : string -> list string -> option (list nat)) (c : chat) (query user exclude : string) (n : Z) : outcome (list message) :=
  if String.eqb query "" || String.eqb user "" then Ok []
  else if c_closed c then Err EOther
  else match ft query (map w_content (c_msgs c)) with
       | None => Err EOther
       | Some ps =>
           let rows := flat_map (fun p => match nth_error (c_msgs c) p with Some w => user_rows (fun l => l) {| c_sessions := c_sessions c; c_msgs := [w]; c_closed := false |} user exclude | None => [] end) ps in
           Ok (map read_msg (firstn (default_ten n) rows))
       end.

(** *** Histories *)
Inductive cop := CCreate (x : session) | CAdd (m : message) | CClose | CReopen.
Definition cstep (ev : cenv) (c : chat) (o : cop) : chat * outcome unit :=
  match o with
  | CCreate x => create_session ev c x
  | CAdd m => add_message ev c m
  | CClose => ({| c_sessions := c_sessions c; c_msgs := c_msgs c; c_closed := true |}, Ok tt)
  | CReopen => ({| c_sessions := c_sessions c; c_msgs := c_msgs c; c_closed := false |}, Ok tt)
  end.
Definition empty_chat : chat := {| c_sessions := []; c_msgs := []; c_closed := false |}.
Definition crun (c : chat) (h : list (cenv * cop)) : chat := fold_left (fun c eo => fst (cstep (fst eo) c (snd eo))) h c.
