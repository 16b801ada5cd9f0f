(** Properties of the text that Observe returns. *)
From Coq Require Import String List ZArith Bool.
From Verif Require Import Base Floats64 HindModel HindSpec HindProofs HindProofs3 HindProps ObserveModel ReflectTextModel ObserveProps.
Import ListNotations.
Open Scope string_scope.

(** *** C237 *)
(** The text names every recalled fact, experience and opinion, and every new observation
    with its confidence. *)
Theorem observe_text_shows : forall f2 query l obs,
  (forall r, In r l -> In (hm_type (re_mem r)) ["world"; "bank"; "opinion"] -> occurs ("- " ++ hm_content (re_mem r) ++ newline) (format_reflect_context f2 query l obs)) /\
  (forall x, In x obs -> occurs ("- " ++ ob_content x ++ " (confidence: " ++ f2 (ob_conf x) ++ ")" ++ newline) (format_reflect_context f2 query l obs)) /\
  occurs query (format_reflect_context f2 query l obs).
Proof.
  intros f2 query l obs. unfold format_reflect_context. cbv zeta. split; [|split].
  - intros r H T. assert (M : forall t, hm_type (re_mem r) = t -> In r (of_type t l)) by (intros t <-; apply filter_In; split; [exact H|apply String.eqb_refl]).
    do 4 apply occurs_r. destruct T as [T|[T|[T|[]]]]; symmetry in T.
    + apply occurs_l. apply (section_occurs _ _ _ _ _ r); [apply M; exact T|]. apply occurs_self.
    + apply occurs_r, occurs_l. apply (section_occurs _ _ _ _ _ r); [apply M; exact T|]. apply occurs_self.
    + do 3 apply occurs_r. apply (section_occurs _ _ _ _ _ r); [apply M; exact T|]. apply occurs_self.
  - intros x H. do 6 apply occurs_r. apply occurs_l. unfold new_insights. destruct obs as [|o obs]; [destruct H|]. do 2 apply occurs_r. apply occurs_l.
    set (line := fun x => _). apply (occurs_concat _ _ (line x)); [apply occurs_self|]. apply in_map. exact H.
  - apply occurs_r, occurs_l, occurs_self.
Qed.
(** A recalled memory and a new observation of an example. *)
Definition got (typ content : string) : recalled := {| re_mem := {| hm_id := "m"; hm_bank := "a"; hm_type := typ; hm_content := content; hm_vec := None; hm_ents := []; hm_conf := f_zero; hm_meta := []; hm_time := None |}; re_score := f_zero; re_strat := Semantic |}.
Example observe_text_shows_ex :
  format_reflect_context (fun _ => "0.20") "tea" [got "opinion" "tea is good"; got "world" "tea is hot"] [pattern 5%Z any_request None "preference" "ann likes tea" "" []] =
    "# Reflection on: tea" ++ newline ++ newline ++ "## Known Facts" ++ newline ++ "- tea is hot" ++ newline ++ newline ++ "## New Insights" ++ newline ++ "- ann likes tea (confidence: 0.20)" ++ newline ++ newline ++
    "## Existing Beliefs" ++ newline ++ "- tea is good" ++ newline.
Proof. vm_compute. reflexivity. Qed.
Print Assumptions observe_text_shows.
(** Refuted as to every recalled memory: observations stored earlier, and memories without a
    known type, are recalled but make no difference to the text. *)
Theorem observe_text_refuted : forall f2 query l obs,
  format_reflect_context f2 query l obs = format_reflect_context f2 query (filter (fun r => negb (String.eqb (hm_type (re_mem r)) "observation")) l) obs /\
  format_reflect_context f2 query l obs = format_reflect_context f2 query (filter (fun r => negb (String.eqb (hm_type (re_mem r)) "")) l) obs.
Proof.
  intros f2 query l obs. assert (H : forall u t, String.eqb t u = false -> of_type t (filter (fun r => negb (String.eqb (hm_type (re_mem r)) u)) l) = of_type t l).
  { intros u t N. unfold of_type. induction l as [|r l IH]; [reflexivity|]. cbn [filter]. destruct (String.eqb_spec (hm_type (re_mem r)) u) as [->|Hn]; cbn [negb filter].
    - rewrite String.eqb_sym, N. exact IH.
    - rewrite IH. reflexivity. }
  unfold format_reflect_context. rewrite !H by reflexivity. split; reflexivity.
Qed.
Print Assumptions observe_text_refuted.
