(** What the router theorems are stated in terms of. *)
From Coq Require Import String List NArith ZArith Bool.
From Verif Require Import Base Floats64 StoreModel RouterModel.
Import ListNotations.
Open Scope string_scope.
Open Scope list_scope.

(** * Which routes are registered *)
(** A route that may be added to the routes [cur]: it has a name nobody else has and
    at least one utterance. *)
Definition may_add (cur : list route) (r : route) : Prop :=
  rt_name r <> "" /\ rt_utts r <> [] /\ forall r', In r' cur -> rt_name r' <> rt_name r.
Definition may_add_all (cur : list route) (l : list (option route)) (rs : list route) : Prop :=
  l = map Some rs /\ Forall (may_add cur) rs.
(** [r] is the first of [cur] with its name, between [a] and [b]. *)
Definition first_named (n : string) (cur a : list route) (r : route) (b : list route) : Prop :=
  cur = a ++ r :: b /\ rt_name r = n /\ forall x, In x a -> rt_name x <> n.

(** How a call changes the registered routes. *)
Definition changes (cur : list route) (c : rcall) (cur' : list route) : Prop :=
  match c with
  | CAdd None => cur' = cur
  | CAdd (Some r) => (may_add cur r /\ cur' = cur ++ [r]) \/ (~ may_add cur r /\ cur' = cur)
  | CAddBatch l => (exists rs, may_add_all cur l rs /\ cur' = cur ++ rs) \/
                   (~ (exists rs, may_add_all cur l rs) /\ cur' = cur)
  | CRemove n => (exists a r b, first_named n cur a r b /\ cur' = a ++ b) \/
                 ((forall r, In r cur -> rt_name r <> n) /\ cur' = cur)
  | CRoute _ | CRouteBatch _ => cur' = cur
  end.
(** The routes registered after a history, starting with [init]. *)
Inductive registered (init : list route) : list rop -> list route -> Prop :=
| reg_start : registered init [] init
| reg_call : forall ops cur o cur', registered init ops cur -> changes cur (op_call o) cur' -> registered init (ops ++ [o]) cur'.

(** A call that succeeds on a router without a store. *)
Definition succeeds (cur : list route) (c : rcall) : Prop :=
  match c with
  | CAdd o => exists r, o = Some r /\ may_add cur r
  | CAddBatch l => exists rs, may_add_all cur l rs
  | CRemove n => exists r, In r cur /\ rt_name r = n
  | _ => True
  end.

(** * Routing *)
(** An embedder that answers [emb]; its batch call may be unavailable. *)
Definition answers (emb : string -> list N) (em : embedder) : Prop :=
  (forall t, em_one em t = Some (emb t)) /\
  (forall ts, em_batch em ts = Some (map emb ts) \/ em_batch em ts = None).

(** [x] is the score of some utterance of a route of [cur] for the query. *)
Definition scores (sim : list N -> list N -> float) (emb : string -> list N) (q : string) (cur : list route) (x : float) : Prop :=
  exists r u, In r cur /\ In u (rt_utts r) /\ x = sim (emb q) (emb u).

(** The answer to a query: the first route among those with the highest score, with
    that score, matched exactly when the score reaches the threshold. No route is
    named when no score is positive. *)
Definition right_answer (sim : list N -> list N -> float) (emb : string -> list N) (thr : float) (cur : list route)
  (q : string) (a : answer) : Prop :=
  ((forall x, scores sim emb q cur x -> fgt x f_zero = false) ->
     an_name a = "" /\ an_score a = f_zero /\ an_matched a = false /\ an_handler a = None) /\
  ((exists x, scores sim emb q cur x /\ fgt x f_zero = true) ->
     exists before r after,
       cur = before ++ r :: after /\
       an_name a = rt_name r /\ an_handler a = rt_handler r /\
       scores sim emb q [r] (an_score a) /\ fgt (an_score a) f_zero = true /\
       (forall x, scores sim emb q cur x -> fgt x (an_score a) = false) /\
       (forall x, scores sim emb q before x -> fge x (an_score a) = false) /\
       (an_matched a = true <-> fge (an_score a) thr = true)).
