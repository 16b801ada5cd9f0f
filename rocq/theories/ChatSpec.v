(** What the theorems on chat sessions are stated in terms of: the calls that succeeded. *)
From Coq Require Import String List NArith ZArith Bool.
From Verif Require Import Base Floats64 EncodingModel EncodingSpec StoreModel ChatModel.
Import ListNotations.
Open Scope string_scope.
Open Scope list_scope.

(** The messages whose AddMessage call succeeded, in order, each with the time of the call. *)
Fixpoint added (c : chat) (h : list (cenv * cop)) : list message :=
  match h with
  | [] => []
  | (ev, o) :: h' =>
      match o, snd (cstep ev c o) with
      | CAdd m, Ok _ => [{| g_id := g_id m; g_session := g_session m; g_role := g_role m; g_content := g_content m; g_vec := g_vec m;
                            g_meta := g_meta m; g_time := ce_now ev |}]
      | _, _ => []
      end ++ added (fst (cstep ev c o)) h'
  end.
(** The sessions whose CreateSession call succeeded. *)
Fixpoint created (c : chat) (h : list (cenv * cop)) : list session :=
  match h with
  | [] => []
  | (ev, o) :: h' =>
      match o, snd (cstep ev c o) with CCreate x, Ok _ => [x] | _, _ => [] end ++ created (fst (cstep ev c o)) h'
  end.
Definition float_vectors (h : list (cenv * cop)) : Prop := forall ev m, In (ev, CAdd m) h -> float32_bits (g_vec m).
Definition newer (a b : message) : bool := Z.ltb (g_time b) (g_time a).
Definition last_n {A} (n : nat) (l : list A) : list A := skipn (length l - n) l.
(** The sessions of a user, other than the excluded one. *)
Definition visible (ss : list session) (user exclude : string) (m : message) : Prop :=
  (exists x, In x ss /\ se_id x = g_session m /\ se_user x = user) /\ (exclude = "" \/ g_session m <> exclude).
(** The k best by similarity to the query. *)
Definition more_similar (sim : list N -> list N -> float) (q : list N) (a b : message) : bool :=
  fgt (f32_of_f64 (sim q (g_vec a))) (f32_of_f64 (sim q (g_vec b))).
