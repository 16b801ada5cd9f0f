(** The filter text parser. *)
From Coq Require Import String Ascii List ZArith Bool Arith Lia.
From Coq Require Import Floats.SpecFloat.
From Verif Require Import Base Floats64 StoreModel SqlModel FilterModel ParseModel ParseSpec ParseProofs ParseProofs2.
Import ListNotations.
Open Scope string_scope.

(** Alternatives joined by OR, in parentheses or not, and groups of them joined by AND are read as
    they are written: AND of the groups, each the OR of its comparisons. *)
Theorem filter_text_exact num last t x : all_of num last t x -> parse_filter num t = Ok x.
Proof. intros H. apply (all_reads num last t x H). lia. Qed.
(** A text that needs no particular fuel: the model's bound on the recursion is never reached. *)
Theorem filter_text_total num n s : String.length s < n -> parse num n s = parse_filter num s.
Proof. intros H. apply parse_fuel; [exact H|lia]. Qed.
Theorem filter_text_in_exact num k u gs : k <> "" -> plain k -> listed num u gs -> parse_filter num (k ++ " IN (" ++ u ++ ")") = Ok (XIn k (Some gs)).
Proof. apply in_reads. Qed.
(** No text at all gives a BETWEEN. *)
Theorem filter_text_never_between num s x : parse_filter num s = Ok x -> no_between x.
Proof. apply parse_no_between. Qed.
Theorem filter_text_no_panic num s : no_quotes s -> parse_filter num s <> Panic.
Proof. apply parse_no_panic. Qed.

(** White space around a text does not matter. *)
Theorem filter_text_spaces num w1 s w2 :
  all_chars (fun a => In a [" "; ascii_of_nat 9; ascii_of_nat 10; ascii_of_nat 13]%char) w1 -> all_chars (fun a => In a [" "; ascii_of_nat 9; ascii_of_nat 10; ascii_of_nat 13]%char) w2 ->
  parse_filter num (w1 ++ s ++ w2) = parse_filter num s.
Proof.
  intros H1 H2. apply parse_around; [revert H1|revert H2]; apply all_impl; cbn; intros a [<-|[<-|[<-|[<-|[]]]]]; reflexivity.
Qed.
Example filter_text_spaces_ex : parse_filter (fun _ => None) "  a:b " = Ok (XCmp CEQ "a" (GStr "b")).
Proof. change "  a:b " with ("  " ++ "a:b" ++ " "). rewrite filter_text_spaces by (cbn; tauto). reflexivity. Qed.

(** An example: the numbers are the texts of digits "2024" and "3". *)
Definition ex_num (s : string) : option float :=
  if String.eqb s "2024" then Some (S754_finite false 2024 0) else if String.eqb s "3" then Some (S754_finite false 3 0) else None.
Ltac plain_tac := cbn; repeat split; intros HH; repeat (destruct HH as [HH|HH]; [discriminate|]); exact HH.
Lemma ex_ai : written ex_num "tag:ai" (XCmp CEQ "tag" (GStr "ai")).
Proof. apply (w_cmp ex_num "tag" ":" CEQ "ai"); [discriminate|plain_tac|constructor|apply m_text; [plain_tac|cbn; intuition discriminate|reflexivity]]. Qed.
Lemma ex_ml : written ex_num "tag='ml'" (XCmp CEQ "tag" (GStr "ml")).
Proof. apply (w_cmp ex_num "tag" "=" CEQ "'ml'"); [discriminate|plain_tac|constructor|]. apply (m_quoted ex_num "'" "ml"); [now left|plain_tac]. Qed.
Lemma ex_date : written ex_num "date>=2024" (XCmp CGE "date" (GFloat (S754_finite false 2024 0))).
Proof. apply (w_cmp ex_num "date" ">=" CGE "2024"); [discriminate|plain_tac|constructor|apply m_number; [plain_tac|cbn; intuition discriminate|reflexivity]]. Qed.
Lemma ex_live : written ex_num "live!=true" (XCmp CNE "live" (GBool true)).
Proof. apply (w_cmp ex_num "live" "!=" CNE "true"); [discriminate|plain_tac|constructor|apply m_true; now left]. Qed.
Example filter_text_ex :
  all_of ex_num false "(tag:ai OR tag='ml') AND date>=2024 AND live!=true"
    (XAnd [XOr [XCmp CEQ "tag" (GStr "ai"); XCmp CEQ "tag" (GStr "ml")]; XAnd [XCmp CGE "date" (GFloat (S754_finite false 2024 0)); XCmp CNE "live" (GBool true)]]) /\
  parse_filter ex_num "(tag:ai OR tag='ml') AND date>=2024 AND live!=true" =
    Ok (XAnd [XOr [XCmp CEQ "tag" (GStr "ai"); XCmp CEQ "tag" (GStr "ml")]; XAnd [XCmp CGE "date" (GFloat (S754_finite false 2024 0)); XCmp CNE "live" (GBool true)]]).
Proof.
  assert (H : all_of ex_num false "(tag:ai OR tag='ml') AND date>=2024 AND live!=true"
    (XAnd [XOr [XCmp CEQ "tag" (GStr "ai"); XCmp CEQ "tag" (GStr "ml")]; XAnd [XCmp CGE "date" (GFloat (S754_finite false 2024 0)); XCmp CNE "live" (GBool true)]])).
  { apply (all_more ex_num false true "(tag:ai OR tag='ml')" _ "date>=2024 AND live!=true"); [discriminate| |].
    - exists "tag:ai OR tag='ml'". split; [|reflexivity]. apply (any_more ex_num "tag:ai" _ "tag='ml'"); [apply ex_ai|apply any_one, ex_ml].
    - apply (all_more ex_num false false "date>=2024" _ "live!=true"); [reflexivity| |].
      + exists "date>=2024". split; [|reflexivity]. apply any_one, ex_date.
      + apply all_one. exists "live!=true". split; [|reflexivity]. apply any_one, ex_live. }
  split; [exact H|]. exact (filter_text_exact _ _ _ _ H).
Qed.
Example filter_text_in_ex : listed ex_num "3,'a',true" [GFloat (S754_finite false 3 0); GStr "a"; GBool true] /\
  parse_filter ex_num "k IN (3,'a',true)" = Ok (XIn "k" (Some [GFloat (S754_finite false 3 0); GStr "a"; GBool true])).
Proof.
  assert (H : listed ex_num "3,'a',true" [GFloat (S754_finite false 3 0); GStr "a"; GBool true]).
  { apply (l_more ex_num "3" _ "'a',true"); [apply m_number; [plain_tac|cbn; intuition discriminate|reflexivity]|].
    apply (l_more ex_num "'a'" _ "true"); [apply (m_quoted ex_num "'" "a"); [now left|plain_tac]|]. apply l_one, m_true. now left. }
  split; [exact H|]. apply (filter_text_in_exact ex_num "k" "3,'a',true"); [discriminate|plain_tac|exact H].
Qed.
Example filter_text_no_panic_ex : no_quotes "price BETWEEN 3 AND 2024" /\ parse_filter ex_num "price BETWEEN 3 AND 2024" = Err EOther.
Proof. split; [cbn; repeat split; discriminate|vm_compute; reflexivity]. Qed.

(** The text given as the example in the documentation of ParseFilterString is refused. *)
Theorem filter_text_documented_example_refuted num : parse_filter num "(tag:ai OR tag:ml) AND date>2024 AND price BETWEEN 100 AND 500" = Err EOther.
Proof. vm_compute. destruct (num "ai"), (num "ml"), (num "2024"); reflexivity. Qed.
(** A text in parentheses on both sides is not the conjunction of the two sides. *)
Theorem filter_text_two_groups_refuted : exists a b x y, any_of ex_num a x /\ any_of ex_num b y /\
  parse_filter ex_num ("(" ++ a ++ ") AND (" ++ b ++ ")") <> Ok (XAnd [x; y]) /\
  parse_filter ex_num ("(" ++ a ++ ") AND (" ++ b ++ ")") <> Err EOther.
Proof.
  exists "tag:ai", "date>=2024", (XCmp CEQ "tag" (GStr "ai")), (XCmp CGE "date" (GFloat (S754_finite false 2024 0))).
  split; [apply any_one, ex_ai|]. split; [apply any_one, ex_date|]. split; vm_compute; discriminate.
Qed.
(** Nor is an OR of conjunctions in parentheses. *)
Theorem filter_text_or_of_ands_refuted : exists a b c x y z, written ex_num a x /\ written ex_num b y /\ written ex_num c z /\
  parse_filter ex_num ("(" ++ a ++ " AND " ++ b ++ ") OR " ++ c) <> Ok (XOr [XAnd [x; y]; z]) /\
  parse_filter ex_num ("(" ++ a ++ " AND " ++ b ++ ") OR " ++ c) <> Err EOther /\
  parse_filter ex_num (a ++ " AND " ++ b ++ " OR " ++ c) = Ok (XAnd [x; XOr [y; z]]).
Proof.
  exists "tag:ai", "date>=2024", "live!=true", (XCmp CEQ "tag" (GStr "ai")), (XCmp CGE "date" (GFloat (S754_finite false 2024 0))), (XCmp CNE "live" (GBool true)).
  split; [exact ex_ai|]. split; [exact ex_date|]. split; [exact ex_live|]. split; [vm_compute; discriminate|]. split; [vm_compute; discriminate|]. vm_compute; reflexivity.
Qed.
(** The sign ":=" of the operator table leaves the colon in the field's name. *)
Theorem filter_text_assign_refuted num k v g : k <> "" -> plain k -> means num v g ->
  parse_filter num (k ++ ":=" ++ v) = Ok (XCmp CEQ (k ++ ":") g).
Proof. apply assign_reads. Qed.
(** A quoted value is cut at an operator inside the quotes. *)
Theorem filter_text_quoted_operator_refuted : parse_filter ex_num "name:'a>b'" = Ok (XCmp CGT "name:'a" (GStr "b'")).
Proof. vm_compute. reflexivity. Qed.
(** A lone quote ends the program. *)
Theorem filter_text_panic_refuted num : parse_filter num "name='" = Panic.
Proof. reflexivity. Qed.

Print Assumptions filter_text_exact.
Print Assumptions filter_text_in_exact.
Print Assumptions filter_text_never_between.
Print Assumptions filter_text_no_panic.
Print Assumptions filter_text_total.
Print Assumptions filter_text_assign_refuted.
Print Assumptions filter_text_documented_example_refuted.
Print Assumptions filter_text_spaces.
