(** Properties of the arguments found in a text. *)
From Coq Require Import List String Ascii ZArith Bool Lia Permutation.
From Verif Require Import Base ArgModel DiversityProofs.
Import ListNotations.
Local Open Scope string_scope.

(** *** C230 *)
(** Decimal digits and their value, from the right. *)
Definition all_digits (s : string) : Prop := Forall (fun a => is_digit a = true) (list_ascii_of_string s).
Definition no_digits (s : string) : Prop := Forall (fun a => is_digit a = false) (list_ascii_of_string s).
Definition decimal (s : string) : Z :=
  fst (fold_right (fun a p => (fst p + Z.of_nat (nat_of_ascii a - 48) * snd p, snd p * 10))%Z (0, 1)%Z (list_ascii_of_string s)).
Definition starts_with_digit (s : string) : Prop := match s with String a _ => is_digit a = true | "" => False end.

Lemma pow_snd l : snd (fold_right (fun a p => (fst p + Z.of_nat (nat_of_ascii a - 48) * snd p, snd p * 10))%Z (0, 1)%Z l) = (10 ^ Z.of_nat (List.length l))%Z.
Proof. induction l; [reflexivity|]. cbn [fold_right snd List.length]. rewrite IHl, Nat2Z.inj_succ, Z.pow_succ_r by lia. lia. Qed.
Lemma read_decimal s : forall acc, read_digits acc s = (acc * 10 ^ Z.of_nat (String.length s) + decimal s)%Z.
Proof.
  induction s as [|a s IH]; intros acc; [cbn; lia|]. cbn [read_digits]. rewrite IH. unfold decimal. cbn [list_ascii_of_string fold_right fst]. rewrite pow_snd.
  cbn [String.length]. rewrite Nat2Z.inj_succ, Z.pow_succ_r by lia.
  assert (L : List.length (list_ascii_of_string s) = String.length s) by (clear; induction s; cbn; congruence). rewrite L. lia.
Qed.
Lemma digits_run d : forall post, all_digits d -> ~ starts_with_digit post -> digits (d ++ post) = (d, post).
Proof.
  induction d as [|a d IH]; intros post D P.
  - cbn [append]. destruct post as [|b post]; [reflexivity|]. cbn [digits]. cbn in P. destruct (is_digit b); [exfalso; auto|reflexivity].
  - cbn [append digits]. inversion D; subst. rewrite H1, (IH post H2 P). reflexivity.
Qed.
Lemma first_run pre d post : no_digits pre -> all_digits d -> d <> "" -> ~ starts_with_digit post -> first_digits (pre ++ d ++ post) = Some (d, post).
Proof.
  intros N D E P. induction pre as [|a pre IH].
  - cbn [append]. destruct d as [|a d]; [congruence|]. change (first_digits (String a d ++ post)) with (if is_digit a then Some (digits (String a d ++ post)) else first_digits (d ++ post)).
    inversion D; subst. rewrite H1. rewrite digits_run by auto. reflexivity.
  - inversion N; subst. cbn [append first_digits]. rewrite H1. auto.
Qed.
(** A whole number written in decimal, with no other digits before it, becomes an argument
    with its value, if it fits; whatever text surrounds it. *)
Theorem integer_argument : forall typ pre d post, arg_lower typ = "integer" \/ arg_lower typ = "int" ->
  no_digits pre -> all_digits d -> d <> "" -> ~ starts_with_digit post -> (decimal d < 2 ^ 63)%Z ->
  coerce (pre ++ d ++ post) typ = PInt (decimal d).
Proof.
  intros typ pre d post T N D E P F. unfold coerce.
  destruct T as [-> | ->]; cbn [String.eqb Ascii.eqb Bool.eqb orb]; rewrite (first_run pre d post N D E P); unfold scan_int; rewrite read_decimal; cbn [Z.mul Z.add]; apply Z.ltb_lt in F; rewrite F; reflexivity.
Qed.
Example integer_argument_ex : coerce "$1250," "Integer" = PInt 1250 /\ decimal "1250" = 1250%Z /\ no_digits "$" /\ all_digits "1250" /\ ~ starts_with_digit ",".
Proof. split; [vm_compute; reflexivity|]. split; [vm_compute; reflexivity|]. split; [repeat constructor|]. split; [repeat constructor|]. cbn. discriminate. Qed.
Print Assumptions integer_argument.
(** Refuted otherwise: the sign is lost, a number that does not fit becomes 0, the exponent of
    a decimal fraction is lost, and a word is passed on as a string. *)
Theorem numeric_argument_refuted :
  coerce "-5" "integer" = PInt 5 /\ coerce "9223372036854775808" "integer" = PInt 0 /\ coerce "1.9" "integer" = PInt 1 /\
  coerce "-2.5e3" "number" = PFloat "2.5" /\ (forall w, no_digits w -> coerce w "integer" = PStr w /\ coerce w "number" = PStr w).
Proof.
  split; [vm_compute; reflexivity|]. split; [vm_compute; reflexivity|]. split; [vm_compute; reflexivity|]. split; [vm_compute; reflexivity|].
  intros w H. assert (Hf : first_digits w = None) by (induction w as [|a w IH]; [reflexivity|]; inversion H; subst; cbn [first_digits]; rewrite H2; auto).
  split; unfold coerce; rewrite Hf; reflexivity.
Qed.
Print Assumptions numeric_argument_refuted.

(** *** C231 *)
(** A boolean is true exactly for the four words, in any case. *)
Theorem boolean_argument : forall v typ, arg_lower typ = "boolean" \/ arg_lower typ = "bool" ->
  exists b, coerce v typ = PBool b /\ (b = true <-> In (arg_lower v) ["true"; "yes"; "是"; "好的"]).
Proof.
  intros v typ T. unfold coerce. eexists. split; [destruct T as [-> | ->]; cbn [String.eqb Ascii.eqb Bool.eqb orb]; reflexivity|]. cbn zeta.
  rewrite !orb_true_iff, !String.eqb_eq. cbn [In]. intuition.
Qed.
(** A list is split at its commas: joined again it is the text, and no part has a comma. *)
Theorem array_argument : forall v typ, arg_lower typ = "array" ->
  exists l, coerce v typ = PArr l /\ String.concat "," l = v /\ Forall (fun x => ~ In ","%char (list_ascii_of_string x)) l.
Proof.
  intros v typ T. unfold coerce. rewrite T. cbn [String.eqb Ascii.eqb Bool.eqb orb]. eexists. split; [reflexivity|].
  assert (H : forall s, split_comma s <> [] /\ String.concat "," (split_comma s) = s /\ Forall (fun x => ~ In ","%char (list_ascii_of_string x)) (split_comma s)).
  { induction s as [|a s (N & C & F)]; [repeat split; [discriminate|]; repeat constructor; auto|]. cbn [split_comma]. destruct (Ascii.eqb_spec a ",") as [->|Na].
    - split; [discriminate|]. split; [|constructor; auto]. destruct (split_comma s) as [|x l]; [congruence|]. change (String.concat "," ("" :: x :: l)) with ("" ++ "," ++ String.concat "," (x :: l)). rewrite C. reflexivity.
    - destruct (split_comma s) as [|x l]; [congruence|]. split; [discriminate|]. split.
      + destruct l as [|y l]; [cbn [String.concat] in *; now rewrite C|]. change (String.concat "," (String a x :: y :: l)) with (String a (String.concat "," (x :: y :: l))). now rewrite C.
      + inversion F; subst. constructor; [|auto]. intros [E|E]; [congruence|auto]. }
  destruct (H v) as (_ & A & B). auto.
Qed.
Example boolean_argument_ex : coerce "YES" "boolean" = PBool true /\ coerce "y" "bool" = PBool false /\ coerce "a,,b" "array" = PArr ["a"; ""; "b"].
Proof. repeat (split; [vm_compute; reflexivity|]); vm_compute; reflexivity. Qed.
Print Assumptions boolean_argument.
Print Assumptions array_argument.

(** *** C232 *)
(** Where a value comes from: what follows the first keyword that is in the text and has
    something after it; else the first allowed value that is in the text; else the default. *)
Definition follows (after : string -> string -> option (option string)) (text k v : string) : Prop :=
  arg_contains (arg_lower text) k = true /\ after k (arg_lower text) = Some (Some v).
Definition nothing_after (after : string -> string -> option (option string)) (text k : string) : Prop :=
  arg_contains (arg_lower text) k = true -> after k (arg_lower text) = Some None.
Theorem argument_source : forall after text ks p r, extract_value after text ks p = Ok r ->
  (exists ks1 k ks2 v, ks = (ks1 ++ k :: ks2)%list /\ Forall (nothing_after after text) ks1 /\ follows after text k v /\ r = Some (coerce v (p_type p))) \/
  (Forall (nothing_after after text) ks /\
   ((exists es1 e es2, p_enum p = (es1 ++ e :: es2)%list /\ Forall (fun x => arg_contains (arg_lower text) (arg_lower x) = false) es1 /\ arg_contains (arg_lower text) (arg_lower e) = true /\ r = Some (coerce e (p_type p))) \/
    (Forall (fun x => arg_contains (arg_lower text) (arg_lower x) = false) (p_enum p) /\ r = match p_default p with Some d => Some (PDefault d) | None => None end))).
Proof.
  intros after text ks p r H. unfold extract_value in H.
  assert (K : forall ks o, by_keyword after ks (arg_lower text) (p_type p) = Ok o ->
    (exists ks1 k ks2 v, ks = (ks1 ++ k :: ks2)%list /\ Forall (nothing_after after text) ks1 /\ follows after text k v /\ o = Some (coerce v (p_type p))) \/ (Forall (nothing_after after text) ks /\ o = None)).
  { clear H. induction ks0 as [|k ks0 IH]; intros o E; [injection E as <-; right; auto|]. cbn [by_keyword] in E. destruct (arg_contains (arg_lower text) k) eqn:C.
    - destruct (after k (arg_lower text)) as [[v|]|] eqn:A; [|idtac|discriminate].
      + injection E as <-. left. exists [], k, ks0, v. repeat split; auto.
      + destruct (IH o E) as [(k1 & x & k2 & v & -> & F & G & ->)|[F ->]].
        * left. exists (k :: k1), x, k2, v. split; [reflexivity|]. split; [constructor; auto; intros _; exact A|]. split; [exact G|reflexivity].
        * right. split; [constructor; auto; intros _; exact A|reflexivity].
    - destruct (IH o E) as [(k1 & x & k2 & v & -> & F & G & ->)|[F ->]].
      + left. exists (k :: k1), x, k2, v. split; [reflexivity|]. split; [constructor; auto; intros X; congruence|]. split; [exact G|reflexivity].
      + right. split; [constructor; auto; intros X; congruence|reflexivity]. }
  destruct (by_keyword after ks (arg_lower text) (p_type p)) as [o| |] eqn:E; cbn [bind] in H; try discriminate.
  destruct (K ks o E) as [(k1 & x & k2 & v & -> & F & G & ->)|[F ->]]; [injection H as <-; left; exists k1, x, k2, v; auto|].
  right. split; [exact F|]. destruct (find _ (p_enum p)) as [e|] eqn:Ef; injection H as <-.
  - left. clear -Ef. induction (p_enum p) as [|y l IH]; [discriminate|]. cbn [find] in Ef. destruct (arg_contains (arg_lower text) (arg_lower y)) eqn:Ey.
    + injection Ef as <-. exists [], y, l. repeat split; auto.
    + destruct (IH Ef) as (e1 & z & e2 & -> & A & B & C). exists (y :: e1), z, e2. repeat split; auto.
  - right. split; [|reflexivity]. rewrite Forall_forall. intros x Hx. exact (find_none _ _ Ef x Hx).
Qed.
(** Looking for an argument panics exactly if a keyword that is in the text, before one with
    something after it, is not a regular expression. *)
Theorem argument_panics : forall after text ks p, extract_value after text ks p = Panic <->
  exists ks1 k ks2, ks = (ks1 ++ k :: ks2)%list /\ Forall (nothing_after after text) ks1 /\ arg_contains (arg_lower text) k = true /\ after k (arg_lower text) = None.
Proof.
  intros after text ks p. unfold extract_value.
  assert (K : forall ks, by_keyword after ks (arg_lower text) (p_type p) = Panic <-> exists ks1 k ks2, ks = (ks1 ++ k :: ks2)%list /\ Forall (nothing_after after text) ks1 /\ arg_contains (arg_lower text) k = true /\ after k (arg_lower text) = None).
  { clear ks. induction ks as [|k ks IH]; cbn [by_keyword].
    - split; [discriminate|]. intros ([|? ?] & ? & ? & X & _); discriminate.
    - destruct (arg_contains (arg_lower text) k) eqn:C; [destruct (after k (arg_lower text)) as [[v|]|] eqn:A|].
      + split; [discriminate|]. intros ([|y l] & x & k2 & X & F & D & E); injection X as -> ->; [congruence|]. inversion F; subst. rewrite (H1 C) in A. discriminate.
      + rewrite IH. split.
        * intros (k1 & x & k2 & -> & F & D & E). exists (k :: k1), x, k2. repeat split; auto. constructor; auto. intros _. exact A.
        * intros ([|y l] & x & k2 & X & F & D & E); injection X as -> ->; [congruence|]. inversion F; subst. exists l, x, k2. auto.
      + split; [|reflexivity]. intros _. exists [], k, ks. auto.
      + rewrite IH. split.
        * intros (k1 & x & k2 & -> & F & D & E). exists (k :: k1), x, k2. repeat split; auto. constructor; auto. intros X. congruence.
        * intros ([|y l] & x & k2 & X & F & D & E); injection X as -> ->; [congruence|]. inversion F; subst. exists l, x, k2. auto. }
  rewrite <- K. destruct (by_keyword after ks (arg_lower text) (p_type p)) as [[v|]| |]; cbn [bind]; split; try discriminate; auto. destruct (find _ _); discriminate.
Qed.
(** An expression for examples: a keyword with a lone parenthesis does not compile; else it
    finds "paris" after "city". *)
Definition demo_after (k low : string) : option (option string) :=
  if arg_contains k "(" then None else if String.eqb k "city" && arg_contains low "city paris" then Some (Some "paris") else Some None.
Definition city : param := {| p_type := "string"; p_required := true; p_default := Some "rome"; p_enum := ["hot"; "cold"] |}.
Example argument_source_ex : extract_value demo_after "City Paris" ["place"; "city"] city = Ok (Some (PStr "paris")) /\
  extract_value demo_after "is it Cold" ["city"] city = Ok (Some (PStr "cold")) /\ extract_value demo_after "hello" ["city"] city = Ok (Some (PDefault "rome")) /\
  extract_value demo_after "weather (today) please" ["city"; "(today"] city = Panic.
Proof. repeat (split; [vm_compute; reflexivity|]); vm_compute; reflexivity. Qed.
Print Assumptions argument_source.
Print Assumptions argument_panics.
(** Refuted as to values only from the text's words, and as to never panicking: a word of the
    description with a lone parenthesis makes the call panic on a text that contains it, and
    an allowed value is found inside another word. *)
Theorem argument_refuted : (exists after text ks p, extract_value after text ks p = Panic) /\
  (forall after, extract_value after "a photo" [] {| p_type := "string"; p_required := true; p_default := None; p_enum := ["hot"] |} = Ok (Some (PStr "hot"))).
Proof. split; [exists demo_after, "weather (today) please", ["(today"], city; vm_compute; reflexivity|]. intros after. vm_compute. reflexivity. Qed.
Print Assumptions argument_refuted.

(** *** C233 *)
(** A built schema requires exactly the parameters whose last definition says so, each once. *)
Definition last_def (l : list (string * param)) (n : string) : option param :=
  match find (fun x => String.eqb (fst x) n) (rev l) with Some x => Some (snd x) | None => None end.
Lemma add_all l : forall s, NoDup (map fst (sc_params s)) ->
  NoDup (map fst (sc_params (fold_left add_param l s))) /\ sc_required (fold_left add_param l s) = sc_required s /\
  forall n p, In (n, p) (sc_params (fold_left add_param l s)) <-> (last_def l n = Some p \/ (last_def l n = None /\ In (n, p) (sc_params s))).
Proof.
  induction l as [|[m q] l IH]; intros s N.
  - split; [exact N|]. split; [reflexivity|]. intros n p. cbn. unfold last_def. cbn. intuition discriminate.
  - cbn [fold_left]. assert (N1 : NoDup (map fst (sc_params (add_param s (m, q))))).
    { cbn [add_param sc_params fst]. rewrite map_app. cbn. 
      assert (H : NoDup (map fst (filter (fun x => negb (String.eqb (fst x) m)) (sc_params s)))).
      { clear -N. induction (sc_params s) as [|x l IH]; [constructor|]. inversion N; subst. cbn [filter]. destruct (negb _); [|auto]. cbn. constructor; [|auto].
        intros X. apply H1. apply in_map_iff in X as (y & E & Y). apply filter_In in Y as [Y _]. rewrite <- E. now apply in_map. }
      apply NoDup_snoc; auto. intros X. apply in_map_iff in X as (y & E & Y). apply filter_In in Y as [_ Y]. rewrite E, String.eqb_refl in Y. discriminate. }
    destruct (IH _ N1) as (A & B & C). split; [exact A|]. split; [rewrite B; reflexivity|]. intros n p. rewrite C. cbn [add_param sc_params fst]. rewrite in_app_iff, filter_In. cbn [fst In].
    unfold last_def. cbn [rev]. assert (Ff : forall (f : string * param -> bool) l1 x, find f (l1 ++ [x]) = match find f l1 with Some y => Some y | None => if f x then Some x else None end).
    { clear. induction l1 as [|y l1 IHl]; intros x; cbn [app find]; [destruct (f x); reflexivity|]. destruct (f y); auto. }
    rewrite Ff. cbn [fst]. destruct (find _ (rev l)) as [[n' p']|] eqn:F; cbn [snd]; [intuition discriminate|].
    destruct (String.eqb_spec m n) as [->|Nm]; cbn [snd].
    + split; [intros [X|[_ [[_ X]|[X|[]]]]]; [discriminate|rewrite String.eqb_refl in X; discriminate|injection X as <-; auto]|intros [[= <-]|[X _]]; [right; auto|discriminate]].
    + split; [intros [X|[_ [[X _]|[X|[]]]]]; [discriminate|right; auto|congruence]|intros [X|[_ X]]; [discriminate|]]. right. split; [reflexivity|]. left. split; [exact X|].
      apply negb_true_iff. apply String.eqb_neq. congruence.
Qed.
Theorem schema_required : forall ord l, (forall x, Permutation (ord x) x) ->
  let s := build ord (fold_left add_param l new_schema) in
  NoDup (sc_required s) /\ forall n, In n (sc_required s) <-> exists p, last_def l n = Some p /\ p_required p = true.
Proof.
  intros ord l O s. destruct (add_all l new_schema ltac:(constructor)) as (N & R & C). unfold s, build. cbn [sc_required]. rewrite R. cbn [new_schema sc_required app].
  set (ps := sc_params (fold_left add_param l new_schema)) in *. split.
  - assert (X : NoDup (map fst (ord ps))) by (eapply Permutation_NoDup; [apply Permutation_map, Permutation_sym, O|exact N]). clear -X.
    induction (ord ps) as [|x m IH]; [constructor|]. inversion X; subst. cbn [filter]. destruct (p_required (snd x)); [|auto]. cbn. constructor; [|auto].
    intros Y. apply H1. apply in_map_iff in Y as (y & E & Y). apply filter_In in Y as [Y _]. rewrite <- E. now apply in_map.
  - intros n. rewrite in_map_iff. split.
    + intros ([m p] & <- & Y). apply filter_In in Y as [Y Rq]. apply (Permutation_in _ (O ps)) in Y. apply C in Y as [Y|[_ []]]. exists p. auto.
    + intros (p & D & Rq). exists (n, p). split; [reflexivity|]. apply filter_In. split; [|exact Rq]. apply (Permutation_in _ (Permutation_sym (O ps))). apply C. auto.
Qed.
Example schema_required_ex : sc_required (build (fun l => l) (fold_left add_param [("city", city); ("unit", {| p_type := "string"; p_required := true; p_default := None; p_enum := [] |});
  ("unit", {| p_type := "string"; p_required := false; p_default := None; p_enum := [] |})] new_schema)) = ["city"].
Proof. vm_compute. reflexivity. Qed.
Print Assumptions schema_required.
(** Refuted as to building twice: every required name is then listed twice. *)
Theorem schema_rebuilt_refuted : forall ord l n, (forall x, Permutation (ord x) x) ->
  In n (sc_required (build ord (fold_left add_param l new_schema))) -> ~ NoDup (sc_required (build ord (build ord (fold_left add_param l new_schema)))).
Proof.
  intros ord l n O H. unfold build at 1. cbn [sc_required sc_params build]. set (x := map fst _).
  destruct (add_all l new_schema ltac:(constructor)) as (_ & R & _). unfold build in H. cbn [sc_required] in H. rewrite R in *. cbn [new_schema sc_required app] in *. fold x in H. intros N.
  apply in_split in H as (a & b & E). rewrite E in N. rewrite <- !app_assoc in N. cbn in N. apply NoDup_remove_2 in N. apply N. rewrite !in_app_iff. cbn. auto 8.
Qed.
Print Assumptions schema_rebuilt_refuted.
