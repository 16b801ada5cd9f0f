(** Model of the text that Observe returns, formatReflectContext,
    /repo/pkg/hindsight/hindsight.go:1112-1159; [f2] prints with "%.2f". *)
From Coq Require Import String List.
From Verif Require Import Base Floats64 HindModel.
Import ListNotations.
Open Scope string_scope.

(** The new observations, hindsight.go:1142-1148. *)
Definition new_insights (f2 : float -> string) (obs : list observation) : string :=
  match obs with
  | [] => ""
  | _ => "## New Insights" ++ newline ++ String.concat "" (map (fun x => "- " ++ ob_content x ++ " (confidence: " ++ f2 (ob_conf x) ++ ")" ++ newline) obs) ++ newline
  end.
Definition format_reflect_context (f2 : float -> string) (query : string) (l : list recalled) (obs : list observation) : string :=
  let line := fun r => "- " ++ hm_content (re_mem r) ++ newline in
  "# Reflection on: " ++ query ++ newline ++ newline ++
  section "Known Facts" line (of_type "world" l) newline ++
  section "Past Experiences" line (of_type "bank" l) newline ++
  new_insights f2 obs ++
  section "Existing Beliefs" line (of_type "opinion" l) "".
