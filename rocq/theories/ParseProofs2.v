(** Reading back what is written. *)
From Coq Require Import String Ascii List ZArith Bool Arith Lia.
From Coq Require Import Floats.SpecFloat.
From Verif Require Import Base Floats64 StoreModel SqlModel FilterModel ParseModel ParseSpec ParseProofs.
Import ListNotations.
Open Scope string_scope.
Arguments is_space : simpl never.
Arguments Ascii.eqb : simpl never.

Definition lacks (c : ascii) (s : string) : Prop := all_chars (fun a => a <> c) s.
Definition prepend (l : string) (o : option (string * string)) : option (string * string) :=
  match o with Some (a, b) => Some (l ++ a, b) | None => None end.
Lemma prepend_prepend a b o : prepend a (prepend b o) = prepend (a ++ b) o.
Proof. destruct o as [[x y]|]; [|reflexivity]. cbn. now rewrite sapp_assoc. Qed.
Lemma cut_step sub a s : after sub (String a s) = None -> cut sub (String a s) = prepend (String a "") (cut sub s).
Proof. intros H. cbn [cut]. rewrite H. destruct (cut sub s) as [[l r]|]; reflexivity. Qed.
Lemma cut_skip c sub w x : lacks c w -> cut (String c sub) (w ++ x) = prepend w (cut (String c sub) x).
Proof.
  induction w as [|a w IH]; intros H; [cbn [append]; destruct (cut (String c sub) x) as [[? ?]|]; reflexivity|].
  destruct H as [H H']. change (String a w ++ x) with (String a (w ++ x)).
  assert (A : after (String c sub) (String a (w ++ x)) = None).
  { cbn. destruct (Ascii.eqb c a) eqn:E; [|reflexivity]. apply Ascii.eqb_eq in E. congruence. }
  rewrite (cut_step _ _ _ A), (IH H'), prepend_prepend. reflexivity.
Qed.
Lemma cut_none c sub w : lacks c w -> cut (String c sub) w = None.
Proof. intros H. rewrite <- (sapp_nil w), cut_skip by exact H. reflexivity. Qed.
Lemma cut_here sub r : sub <> "" -> cut sub (sub ++ r) = Some ("", r).
Proof. intros H. assert (A := after_app sub r). destruct sub as [|a sub]; [congruence|]. cbn [append] in *. cbn [cut]. now rewrite A. Qed.
Lemma after_lacks c p v : lacks c v -> after (String c p) v = None.
Proof. destruct v as [|a v]; [reflexivity|]. intros [H _]. cbn. destruct (Ascii.eqb c a) eqn:E; [|reflexivity]. apply Ascii.eqb_eq in E. congruence. Qed.
Lemma lacks_app c a b : lacks c (a ++ b) <-> lacks c a /\ lacks c b.
Proof. apply all_app. Qed.
Lemma all_impl (P Q : ascii -> Prop) s : (forall a, P a -> Q a) -> all_chars P s -> all_chars Q s.
Proof. intros H. induction s as [|a s IH]; [easy|]. cbn. intros [H1 H2]. auto. Qed.
Lemma plain_lacks c s : In c special -> plain s -> lacks c s.
Proof. intros H. apply all_impl. intros a Ha ->. now apply Ha. Qed.

(** No white space. *)
Definition tight (s : string) : Prop := all_chars (fun a => is_space a = false) s.
Lemma space_special a : is_space a = true -> In a special.
Proof.
  intros H. unfold is_space in H. apply existsb_exists in H as (n & Hn & E). apply Nat.eqb_eq in E.
  assert (A : a = ascii_of_nat n) by (rewrite <- E; symmetry; apply ascii_nat_embedding). subst a.
  cbn in Hn. destruct Hn as [<- |[<- |[<- |[<- |[<- |[<- |[]]]]]]]; cbn; tauto.
Qed.
Lemma plain_tight s : plain s -> tight s.
Proof. apply all_impl. intros a H. destruct (is_space a) eqn:E; [|reflexivity]. now apply space_special in E. Qed.
Lemma tight_lacks s : tight s -> lacks " " s.
Proof. apply all_impl. intros a H ->. discriminate. Qed.
Lemma drop_left_id a z : is_space a = false -> drop_left (String a z) = String a z.
Proof. intros H. cbn. now rewrite H. Qed.
Lemma drop_right_id y b : is_space b = false -> drop_right (y ++ String b "") = y ++ String b "".
Proof.
  intros H. induction y as [|a y IH]; cbn; [now rewrite H|]. rewrite IH. destruct y; reflexivity.
Qed.
Definition first (s : string) (a : ascii) : Prop := exists z, s = String a z.
Definition last (s : string) (b : ascii) : Prop := exists y, s = y ++ String b "".
Lemma trim_id s a b : first s a -> last s b -> is_space a = false -> is_space b = false -> trim_space s = s.
Proof.
  intros [z ->] [y E] Ha Hb. unfold trim_space. rewrite (drop_left_id _ _ Ha). rewrite E. now apply drop_right_id.
Qed.
Lemma first_app s t a : first s a -> first (s ++ t) a.
Proof. intros [z ->]. now exists (z ++ t). Qed.
Lemma last_app s t b : last t b -> last (s ++ t) b.
Proof. intros [y ->]. exists (s ++ y). now rewrite sapp_assoc. Qed.
Lemma snoc s : s <> "" -> exists b, last s b.
Proof.
  induction s as [|a s IH]; [congruence|]. intros _. destruct s as [|c s]; [exists a; now exists ""|].
  destruct IH as (b & y & E); [discriminate|]. exists b, (String a y). cbn. now rewrite E.
Qed.
Lemma all_first P s a : all_chars P s -> first s a -> P a.
Proof. intros H [z ->]. apply H. Qed.
Lemma all_last P s b : all_chars P s -> last s b -> P b.
Proof. intros H [y ->]. apply all_app in H. apply H. Qed.
Lemma trim_tight s : tight s -> trim_space s = s.
Proof.
  intros H. destruct s as [|a z]; [reflexivity|]. destruct (snoc (String a z)) as [b L]; [discriminate|].
  apply (trim_id _ a b); [now exists z|exact L|apply H|exact (all_last _ _ _ H L)].
Qed.
Lemma starts_first c s a : first s a -> starts c s = Ascii.eqb c a.
Proof. now intros [z ->]. Qed.
Lemma ends_last c s b : last s b -> ends c s = Ascii.eqb c b.
Proof.
  intros [y ->]. induction y as [|a y IH]; [reflexivity|]. cbn. rewrite <- IH.
  destruct y as [|? ?]; reflexivity.
Qed.
Lemma but_last_snoc y b : but_last (y ++ String b "") = y.
Proof. induction y as [|a y IH]; [reflexivity|]. cbn. destruct y as [|c y]; [reflexivity|]. cbn in *. now rewrite IH. Qed.
Lemma inside_wrap a y b : inside (String a (y ++ String b "")) = Ok y.
Proof.
  pose proof (but_last_snoc y b) as H. destruct y as [|c y]; [reflexivity|]. cbn [append] in *. unfold inside. now rewrite H.
Qed.

(** Values. *)
Section V.
Variable num : string -> option float.
Lemma means_chars v g : means num v g -> tight v /\ lacks "<" v /\ lacks ">" v /\ lacks "=" v /\ lacks "!" v /\ lacks ":" v /\ lacks "(" v /\ lacks ")" v /\ lacks "," v.
Proof.
  assert (P : forall v, plain v -> tight v /\ lacks "<" v /\ lacks ">" v /\ lacks "=" v /\ lacks "!" v /\ lacks ":" v /\ lacks "(" v /\ lacks ")" v /\ lacks "," v).
  { intros w H. split; [now apply plain_tight|]. repeat split; apply plain_lacks; try assumption; cbn; tauto. }
  assert (B : plain "true" /\ plain "TRUE" /\ plain "false" /\ plain "FALSE").
  { cbn. repeat split; intros H; repeat (destruct H as [H|H]; [discriminate|]); exact H. }
  intros M. inversion M as [q t Q H|v' H|v' H|v' x H|v' H]; subst.
  - destruct (P t H) as (T & L). unfold tight, lacks in *. cbn. rewrite !all_app. cbn.
    destruct Q as [-> | ->]; repeat split; try discriminate; try tauto; try reflexivity.
  - apply P. destruct H as [-> | ->]; tauto.
  - apply P. destruct H as [-> | ->]; tauto.
  - now apply P.
  - now apply P.
Qed.
Lemma value_reads v g : means num v g -> parse_value num v = Ok g.
Proof.
  intros M. pose proof (means_chars v g M) as C. unfold parse_value. cbv zeta. rewrite trim_tight by apply C.
  inversion M as [q t Q H|v' H|v' H|v' x H N E|v' H N E]; subst.
  - assert (S : forall c, starts c (String q (t ++ String q "")) && ends c (String q (t ++ String q "")) = Ascii.eqb c q).
    { intros c. rewrite (ends_last c _ q) by (now exists (String q t)). cbn [starts]. now rewrite andb_diag. }
    rewrite !S, inside_wrap. destruct Q as [-> | ->]; reflexivity.
  - destruct H as [-> | ->]; reflexivity.
  - destruct H as [-> | ->]; reflexivity.
  - assert (Q : forall c, In c special -> starts c v = false).
    { intros c Hc. destruct v as [|a v]; [reflexivity|]. cbn. apply Ascii.eqb_neq. intros <-. now apply H. }
    rewrite !Q by (cbn; tauto). cbn [andb].
    destruct (String.eqb_spec v "true") as [->|]; [cbn in N; tauto|]. destruct (String.eqb_spec v "TRUE") as [->|]; [cbn in N; tauto|].
    destruct (String.eqb_spec v "false") as [->|]; [cbn in N; tauto|]. destruct (String.eqb_spec v "FALSE") as [->|]; [cbn in N; tauto|].
    cbn [orb]. now rewrite E.
  - assert (Q : forall c, In c special -> starts c v = false).
    { intros c Hc. destruct v as [|a v]; [reflexivity|]. cbn. apply Ascii.eqb_neq. intros <-. now apply H. }
    rewrite !Q by (cbn; tauto). cbn [andb].
    destruct (String.eqb_spec v "true") as [->|]; [cbn in N; tauto|]. destruct (String.eqb_spec v "TRUE") as [->|]; [cbn in N; tauto|].
    destruct (String.eqb_spec v "false") as [->|]; [cbn in N; tauto|]. destruct (String.eqb_spec v "FALSE") as [->|]; [cbn in N; tauto|].
    cbn [orb]. now rewrite E.
Qed.

(** One comparison. *)
Lemma op_reads k t o v g : k <> "" -> plain k -> sign t o -> means num v g -> parse_op num operators (k ++ t ++ v) = Ok (XCmp o k g).
Proof.
  intros K P S M. pose proof (means_chars v g M) as (T & L1 & L2 & L3 & L4 & L5 & _).
  assert (Z : lacks "<" k /\ lacks ">" k /\ lacks "=" k /\ lacks "!" k /\ lacks ":" k) by (repeat split; apply plain_lacks; try assumption; cbn; tauto).
  destruct Z as (K1 & K2 & K3 & K4 & K5).
  assert (F : bind (parse_value num (trim_space v)) (fun x => Ok (XCmp o (trim_space k) x)) = Ok (XCmp o k g)).
  { rewrite (trim_tight v T), (value_reads v g M). cbn. now rewrite (trim_tight k (plain_tight k P)). }
  destruct k as [|a k0] eqn:EK; [congruence|]. rewrite <- EK in *.
  assert (D : forall ops sub, cut sub (k ++ t ++ v) = Some (k, v) -> parse_op num ((sub, o) :: ops) (k ++ t ++ v) = Ok (XCmp o k g)).
  { intros ops sub E. cbn [parse_op]. rewrite E. rewrite EK in *. exact F. }
  assert (N : forall ops sub o', cut sub (k ++ t ++ v) = None -> parse_op num ((sub, o') :: ops) (k ++ t ++ v) = parse_op num ops (k ++ t ++ v)).
  { intros ops sub o' E. cbn [parse_op]. now rewrite E. }
  assert (H1 : forall c s, lacks c k -> cut (String c s) (t ++ v) = None -> cut (String c s) (k ++ t ++ v) = None) by (intros c s Hc E; rewrite cut_skip, E by exact Hc; reflexivity).
  assert (H2 : forall c s, lacks c k -> cut (String c s) (t ++ v) = Some ("", v) -> cut (String c s) (k ++ t ++ v) = Some (k, v)).
  { intros c s Hc E. rewrite cut_skip, E by exact Hc. cbn [prepend]. now rewrite sapp_nil. }
  assert (A1 := after_lacks "=" "" v L3).
  unfold operators.
  destruct S; cbn [append] in *.
  - apply D, H2; [exact K2|]. now apply (cut_here ">=").
  - rewrite N; [|apply H1; [exact K2|]; rewrite 2!cut_step by reflexivity; now rewrite (cut_none ">" "=" v L2)].
    apply D, H2; [exact K1|]. now apply (cut_here "<=").
  - rewrite N; [|apply H1; [exact K2|]; rewrite 2!cut_step by reflexivity; now rewrite (cut_none ">" "=" v L2)].
    rewrite N; [|apply H1; [exact K1|]; rewrite 2!cut_step by reflexivity; now rewrite (cut_none "<" "=" v L1)].
    apply D, H2; [exact K4|]. now apply (cut_here "!=").
  - rewrite N; [|apply H1; [exact K2|]; rewrite cut_step by exact A1; now rewrite (cut_none ">" "=" v L2)].
    rewrite N; [|apply H1; [exact K1|]; rewrite cut_step by reflexivity; now rewrite (cut_none "<" "=" v L1)].
    rewrite N; [|apply H1; [exact K4|]; rewrite cut_step by reflexivity; now rewrite (cut_none "!" "=" v L4)].
    apply D, H2; [exact K2|]. now apply (cut_here ">").
  - rewrite N; [|apply H1; [exact K2|]; rewrite cut_step by reflexivity; now rewrite (cut_none ">" "=" v L2)].
    rewrite N; [|apply H1; [exact K1|]; rewrite cut_step by exact A1; now rewrite (cut_none "<" "=" v L1)].
    rewrite N; [|apply H1; [exact K4|]; rewrite cut_step by reflexivity; now rewrite (cut_none "!" "=" v L4)].
    rewrite N; [|apply H1; [exact K2|]; rewrite cut_step by reflexivity; now rewrite (cut_none ">" "" v L2)].
    apply D, H2; [exact K1|]. now apply (cut_here "<").
  - rewrite N; [|apply H1; [exact K2|]; rewrite cut_step by reflexivity; now rewrite (cut_none ">" "=" v L2)].
    rewrite N; [|apply H1; [exact K1|]; rewrite cut_step by reflexivity; now rewrite (cut_none "<" "=" v L1)].
    rewrite N; [|apply H1; [exact K4|]; rewrite cut_step by reflexivity; now rewrite (cut_none "!" "=" v L4)].
    rewrite N; [|apply H1; [exact K2|]; rewrite cut_step by reflexivity; now rewrite (cut_none ">" "" v L2)].
    rewrite N; [|apply H1; [exact K1|]; rewrite cut_step by reflexivity; now rewrite (cut_none "<" "" v L1)].
    apply D, H2; [exact K3|]. now apply (cut_here "=").
  - rewrite N; [|apply H1; [exact K2|]; rewrite cut_step by reflexivity; now rewrite (cut_none ">" "=" v L2)].
    rewrite N; [|apply H1; [exact K1|]; rewrite cut_step by reflexivity; now rewrite (cut_none "<" "=" v L1)].
    rewrite N; [|apply H1; [exact K4|]; rewrite cut_step by reflexivity; now rewrite (cut_none "!" "=" v L4)].
    rewrite N; [|apply H1; [exact K2|]; rewrite cut_step by reflexivity; now rewrite (cut_none ">" "" v L2)].
    rewrite N; [|apply H1; [exact K1|]; rewrite cut_step by reflexivity; now rewrite (cut_none "<" "" v L1)].
    rewrite N; [|apply H1; [exact K3|]; rewrite cut_step by reflexivity; now rewrite (cut_none "=" "" v L3)].
    rewrite N; [|apply H1; [exact K5|]; rewrite cut_step by exact A1; now rewrite (cut_none ":" "=" v L5)].
    apply D, H2; [exact K5|]. now apply (cut_here ":").
Qed.

(** Words. *)
Lemma word_chars t x : written num t x -> tight t /\ lacks "(" t /\ lacks ")" t /\ exists k c z, t = k ++ String c z /\ k <> "" /\ tight k /\ In c [">"; "<"; "!"; "="; ":"]%char.
Proof.
  intros [k s o v g K P S M]. pose proof (means_chars v g M) as (T & _ & _ & _ & _ & _ & L1 & L2 & _).
  assert (Sg : tight s /\ lacks "(" s /\ lacks ")" s /\ exists c z, s = String c z /\ In c [">"; "<"; "!"; "="; ":"]%char).
  { destruct S; cbn; repeat split; try discriminate; eexists; eexists; split; try reflexivity; cbn; tauto. }
  destruct Sg as (S1 & S2 & S3 & c & z & S4 & S5). unfold tight, lacks in *. rewrite !all_app.
  pose proof (plain_tight k P). pose proof (plain_lacks "(" k ltac:(cbn; tauto) P). pose proof (plain_lacks ")" k ltac:(cbn; tauto) P).
  repeat split; try assumption. exists k, c, (z ++ v). subst s. repeat split; try assumption.
Qed.
Lemma any_head u x : any_of num u x -> exists k c z, u = k ++ String c z /\ k <> "" /\ tight k /\ lacks "(" k /\ In c [">"; "<"; "!"; "="; ":"]%char.
Proof.
  intros [t y H|t y r w H _]; destruct (word_chars _ _ H) as (_ & L & _ & k & c & z & E & K & T & C).
  - exists k, c, z. repeat split; try assumption. rewrite E in L. now apply lacks_app in L.
  - exists k, c, (z ++ " OR " ++ r). repeat split; try assumption; [rewrite E, sapp_assoc; reflexivity|]. rewrite E in L. now apply lacks_app in L.
Qed.
Lemma any_first u x : any_of num u x -> exists a, first u a /\ is_space a = false /\ a <> "("%char.
Proof.
  intros H. destruct (any_head u x H) as (k & c & z & E & K & T & L & _). destruct k as [|a k]; [congruence|].
  exists a. split; [now exists (k ++ String c z)|]. split; [apply T|apply L].
Qed.
Lemma any_last u x : any_of num u x -> exists b, last u b /\ is_space b = false /\ b <> ")"%char.
Proof.
  induction 1 as [t y H|t y r w H _ IH].
  - destruct (word_chars _ _ H) as (T & _ & L & k & c & z & E & K & _). destruct (snoc t) as [b B]; [subst t; destruct k; discriminate|].
    exists b. split; [exact B|]. split; [exact (all_last _ _ _ T B)|exact (all_last _ _ _ L B)].
  - destruct IH as (b & B & H1). exists b. split; [|exact H1]. now apply last_app, last_app.
Qed.
(** A keyword cannot begin inside a word that has a sign before its end. *)
Lemma after_word p k c z : (exists p0, p = p0 ++ " ") -> lacks c p -> tight k -> after p (k ++ String c z) = None.
Proof.
  revert p. induction k as [|b k IH]; intros p [p0 E] L T.
  - destruct p as [|a p]; [destruct p0; discriminate|]. cbn. destruct (Ascii.eqb a c) eqn:E1; [|reflexivity].
    apply Ascii.eqb_eq in E1. destruct L as [L _]. congruence.
  - destruct p as [|a p]; [destruct p0; discriminate|]. cbn. destruct (Ascii.eqb a b) eqn:E1; [|reflexivity].
    apply Ascii.eqb_eq in E1. subst b. destruct T as [T1 T2]. destruct p0 as [|a0 p0].
    + cbn in E. injection E as -> ->. discriminate.
    + cbn in E. injection E as <- E. apply IH; [now exists p0|apply L|exact T2].
Qed.
Lemma sign_lacks c : In c [">"; "<"; "!"; "="; ":"]%char -> lacks c "AND " /\ lacks c "OR ".
Proof. cbn. intros [<-|[<-|[<-|[<-|[<-|[]]]]]]; repeat split; discriminate. Qed.
(** AND is only found after the alternatives. *)
Lemma cut_and_any u x : any_of num u x -> forall pre post z, lacks " " pre -> lacks " " post ->
  cut " AND " (pre ++ u ++ post ++ z) = prepend (pre ++ u ++ post) (cut " AND " z).
Proof.
  induction 1 as [t y H|t y r w H HA IH]; intros pre post z P1 P2.
  - destruct (word_chars _ _ H) as (T & _). apply tight_lacks in T.
    rewrite cut_skip, cut_skip, cut_skip by assumption. now rewrite !prepend_prepend, <- !sapp_assoc.
  - destruct (word_chars _ _ H) as (T & _). apply tight_lacks in T. destruct (any_head _ _ HA) as (k & c & z' & E & K & Tk & _ & C).
    rewrite !sapp_assoc. rewrite cut_skip, cut_skip by assumption.
    change (" OR " ++ r ++ post ++ z) with (String " " ("OR" ++ String " " (r ++ post ++ z))).
    rewrite cut_step by reflexivity. rewrite (cut_skip _ _ "OR") by (cbn; repeat split; discriminate).
    rewrite cut_step.
    2:{ change (after "AND " (r ++ post ++ z) = None). rewrite E, !sapp_assoc. cbn [append]. apply after_word; [now exists "AND"|now apply sign_lacks|exact Tk]. }
    specialize (IH "" post z Logic.I P2). cbn [append] in IH. rewrite IH. rewrite !prepend_prepend. f_equal. rewrite !sapp_assoc. reflexivity.
Qed.
Lemma prepend_nil o : prepend "" o = o.
Proof. destruct o as [[? ?]|]; reflexivity. Qed.
Lemma cut_and_none u x : any_of num u x -> cut " AND " u = None.
Proof. intros H. pose proof (cut_and_any u x H "" "" "" Logic.I Logic.I) as E. cbn [append] in E. rewrite sapp_nil in E. rewrite E. reflexivity. Qed.
Lemma cut_and_some u x pre post r : any_of num u x -> lacks " " pre -> lacks " " post -> cut " AND " (pre ++ u ++ post ++ " AND " ++ r) = Some (pre ++ u ++ post, r).
Proof.
  intros H P1 P2. rewrite (cut_and_any u x H pre post _ P1 P2). rewrite cut_here by discriminate. cbn [prepend]. now rewrite sapp_nil.
Qed.

Lemma parse_step n s : parse num (S n) s =
  let s := trim_space s in
  if starts "("%char s && ends ")"%char s then bind (inside s) (parse num n) else
  match cut " AND " s with
  | Some (String a l, r) => bind (parse num n (String a l)) (fun x => bind (parse num n r) (fun y => Ok (XAnd [x; y])))
  | _ =>
    match cut " OR " s with
    | Some (String a l, r) => bind (parse num n (String a l)) (fun x => bind (parse num n r) (fun y => Ok (XOr [x; y])))
    | _ => parse_comparison num s
    end
  end.
Proof. reflexivity. Qed.
Lemma word_reads t x n : written num t x -> parse num (S n) t = Ok x.
Proof.
  intros H. destruct (word_chars _ _ H) as (T & L & _). rewrite parse_step. cbv zeta. rewrite trim_tight by exact T.
  assert (T' := tight_lacks t T).
  assert (St : starts "(" t = false) by (destruct t as [|a t]; [reflexivity|]; cbn; apply Ascii.eqb_neq; intros <-; now apply L).
  rewrite St. cbn [andb]. rewrite !cut_none by exact T'. unfold parse_comparison, contains. rewrite !cut_none by exact T'.
  destruct H as [k s o v g K P S M]. now apply op_reads.
Qed.
Lemma any_reads u x : any_of num u x -> forall n, String.length u < n -> parse num n u = Ok x.
Proof.
  induction 1 as [t y H|t y r w H HA IH]; intros [|n] N; try lia; [now apply word_reads|].
  assert (HU := any_more num t y r w H HA). rewrite parse_step. cbv zeta.
  destruct (any_first _ _ HU) as (a & A1 & A2 & A3). destruct (any_last _ _ HU) as (b & B1 & B2 & B3).
  rewrite (trim_id _ a b A1 B1 A2 B2). rewrite (starts_first _ _ _ A1).
  destruct (Ascii.eqb "(" a) eqn:E; [apply Ascii.eqb_eq in E; congruence|]. cbn [andb]. rewrite (cut_and_none _ _ HU).
  destruct (word_chars _ _ H) as (T & _ & _ & k & c & z & Et & K & _). apply tight_lacks in T. rewrite cut_skip by exact T. rewrite cut_here by discriminate.
  cbn [prepend]. rewrite sapp_nil. rewrite !slen_app in N.
  destruct t as [|a' t']; [destruct k; discriminate|]. destruct n as [|n]; [cbn in N; lia|].
  rewrite (word_reads _ _ n H). cbn [bind]. rewrite IH by (cbn in N; lia). reflexivity.
Qed.
Lemma group_shape p t x : group num p t x -> exists pre u post, t = pre ++ u ++ post /\ any_of num u x /\ lacks " " pre /\ lacks " " post /\
  exists a b, first t a /\ last t b /\ is_space a = false /\ is_space b = false /\ (if p then True else a <> "("%char /\ b <> ")"%char).
Proof.
  intros (u & H & ->). destruct (any_first _ _ H) as (a & A1 & A2 & A3). destruct (any_last _ _ H) as (b & B1 & B2 & B3). destruct p.
  - exists "(", u, ")". split; [reflexivity|]. split; [exact H|]. split; [cbn; split; [discriminate|exact Logic.I]|]. split; [cbn; split; [discriminate|exact Logic.I]|].
    exists "("%char, ")"%char. split; [now exists (u ++ ")")|]. split; [now exists ("(" ++ u)|]. repeat split.
  - exists "", u, "". split; [now rewrite sapp_nil|]. split; [exact H|]. split; [exact Logic.I|]. split; [exact Logic.I|]. exists a, b. tauto.
Qed.
Lemma group_reads p t x : group num p t x -> forall n, String.length t < n -> parse num n t = Ok x.
Proof.
  intros G n N. destruct p; destruct G as (u & H & ->); [|now apply any_reads]. destruct n as [|n]; [lia|].
  rewrite parse_step. cbv zeta. rewrite (trim_id _ "(" ")"); [|now exists (u ++ ")")|now exists ("(" ++ u)|reflexivity|reflexivity].
  rewrite (ends_last _ _ ")") by (now exists ("(" ++ u)). cbn [append starts]. rewrite !Ascii.eqb_refl. cbn [andb].
  rewrite inside_wrap. cbn [bind]. apply any_reads; [exact H|]. cbn in N. rewrite slen_app in N. cbn in N. lia.
Qed.
Lemma all_edges l t x : all_of num l t x -> exists a b, first t a /\ last t b /\ is_space a = false /\ is_space b = false /\ (l = false -> b <> ")"%char).
Proof.
  induction 1 as [t x G|p t x r y P G HA (a' & b & _ & B1 & _ & B2 & B3)].
  - destruct (group_shape _ _ _ G) as (pre & u & post & _ & _ & _ & _ & a & b & A1 & B1 & A2 & B2 & S). exists a, b. repeat split; try assumption.
    intros ->. apply S.
  - destruct (group_shape _ _ _ G) as (pre & u & post & _ & _ & _ & _ & a & b' & A1 & _ & A2 & _). exists a, b. repeat split; try assumption.
    + now apply first_app.
    + now apply last_app, last_app.
Qed.
Lemma all_reads l t x : all_of num l t x -> forall n, String.length t < n -> parse num n t = Ok x.
Proof.
  induction 1 as [t x G|p t x r y P G HA IH]; intros n N; [now apply (group_reads l)|]. destruct n as [|n]; [lia|].
  pose proof (all_edges _ _ _ (all_more num l p t x r y P G HA)) as (a & b & A1 & B1 & A2 & B2 & B3).
  rewrite parse_step. cbv zeta. rewrite (trim_id _ a b A1 B1 A2 B2). rewrite (starts_first _ _ _ A1), (ends_last _ _ _ B1).
  destruct (group_shape _ _ _ G) as (pre & u & post & E & H & P1 & P2 & a' & b' & A1' & _ & _ & _ & S).
  assert (Q : Ascii.eqb "(" a && Ascii.eqb ")" b = false).
  { destruct l.
    - rewrite (P eq_refl) in S. destruct S as [S _]. destruct A1 as [z1 Z1], A1' as [z2 Z2]. rewrite Z2 in Z1. cbn in Z1. injection Z1 as Z1 _. subst a'.
      destruct (Ascii.eqb "(" a) eqn:E1; [apply Ascii.eqb_eq in E1; congruence|reflexivity].
    - specialize (B3 eq_refl). destruct (Ascii.eqb ")" b) eqn:E1; [apply Ascii.eqb_eq in E1; congruence|apply andb_false_r]. }
  rewrite Q. clear Q. assert (C : cut " AND " (t ++ " AND " ++ r) = Some (t, r)).
  { rewrite E, !sapp_assoc. now apply (cut_and_some u x). }
  rewrite C. rewrite !slen_app in N. destruct A1' as [z2 Z2]. rewrite Z2 in *. cbn in N.
  rewrite (group_reads _ _ _ G) by (cbn; lia). cbn [bind]. rewrite IH by lia. reflexivity.
Qed.

(** Lists. *)
Lemma listed_chars u gs : listed num u gs -> tight u.
Proof.
  induction 1 as [v g M|v g r gs M _ IH]; [apply (means_chars _ _ M)|]. unfold tight in *. rewrite !all_app. cbn.
  pose proof (means_chars _ _ M) as (T & _). repeat split; assumption.
Qed.
Lemma listed_reads u gs : listed num u gs -> forall n, String.length u <= n -> parse_values num (split_on n "," u) = Ok gs.
Proof.
  induction 1 as [v g M|v g r gs M _ IH]; intros n N; pose proof (means_chars _ _ M) as (T & _ & _ & _ & _ & _ & _ & _ & C).
  - assert (E : split_on n "," v = [v]) by (destruct n; [reflexivity|]; cbn [split_on]; now rewrite cut_none).
    rewrite E. cbn [parse_values]. now rewrite (trim_tight v T), (value_reads _ _ M).
  - rewrite !slen_app in N. destruct n as [|n]; [cbn in N; lia|]. cbn [split_on]. rewrite cut_skip by exact C. rewrite cut_here by discriminate.
    cbn [prepend]. rewrite sapp_nil. cbn [parse_values]. rewrite (trim_tight v T), (value_reads _ _ M). cbn [bind].
    rewrite IH by (cbn in N; lia). reflexivity.
Qed.
Lemma in_reads k u gs : k <> "" -> plain k -> listed num u gs -> parse_filter num (k ++ " IN (" ++ u ++ ")") = Ok (XIn k (Some gs)).
Proof.
  intros K P H. unfold parse_filter. rewrite parse_step. cbv zeta. set (s := k ++ " IN (" ++ u ++ ")").
  assert (T := plain_tight k P). assert (Lk := tight_lacks k T). assert (Tu := listed_chars u gs H).
  destruct k as [|a k']; [congruence|]. set (k := String a k') in *.
  assert (A1 : first s a) by (now exists (k' ++ " IN (" ++ u ++ ")")).
  assert (B1 : last s ")") by (exists (k ++ " IN (" ++ u); unfold s; rewrite !sapp_assoc; reflexivity).
  rewrite (trim_id s a ")" A1 B1 (proj1 T) eq_refl).
  assert (N : a <> "("%char) by (intros ->; apply (proj1 P); cbn; tauto).
  rewrite (starts_first _ _ _ A1). destruct (Ascii.eqb "(" a) eqn:E; [apply Ascii.eqb_eq in E; congruence|]. cbn [andb].
  assert (Lr : lacks " " ("(" ++ u ++ ")")).
  { unfold lacks. rewrite !all_app. pose proof (tight_lacks u Tu). cbn. repeat split; try discriminate; assumption. }
  assert (Z : s = k ++ String " " ("IN" ++ String " " ("(" ++ u ++ ")"))) by reflexivity.
  assert (C : forall sub, after sub ("IN (" ++ u ++ ")") = None -> after sub ("(" ++ u ++ ")") = None -> cut (String " " sub) s = None).
  { intros sub C1 C2. rewrite Z, (cut_skip _ _ k) by exact Lk. rewrite cut_step by exact C1. rewrite (cut_skip _ _ "IN") by (cbn; repeat split; discriminate).
    rewrite cut_step by exact C2. rewrite cut_none by exact Lr. reflexivity. }
  rewrite !C by reflexivity. unfold parse_comparison, contains. rewrite C by reflexivity.
  assert (D : cut " IN " s = Some (k, "(" ++ u ++ ")")).
  { unfold s. rewrite cut_skip by exact Lk. change (" IN (" ++ u ++ ")") with (" IN " ++ "(" ++ u ++ ")"). rewrite cut_here by discriminate. cbn [prepend]. now rewrite sapp_nil. }
  rewrite D. assert (S2 : split_on (String.length s) " IN " s = [k; "(" ++ u ++ ")"]).
  { assert (LS : exists m, String.length s = S (S m)) by (unfold s; cbn; rewrite slen_app; cbn; eexists; rewrite <- plus_n_Sm; reflexivity).
    destruct LS as [m ->]. cbn [split_on]. rewrite D. now rewrite cut_none. }
  rewrite S2. cbv zeta. assert (T2 : tight ("(" ++ u ++ ")")) by (unfold tight; rewrite !all_app; cbn; repeat split; assumption).
  rewrite (trim_tight _ T2). rewrite (ends_last _ _ ")") by (now exists ("(" ++ u)). cbn [append starts]. rewrite !Ascii.eqb_refl. cbn [negb orb].
  rewrite inside_wrap. cbn [bind]. rewrite (listed_reads _ _ H) by lia. cbn [bind]. now rewrite (trim_tight k T).
Qed.
(** ":=" is found as "=". *)
Lemma assign_reads k v g : k <> "" -> plain k -> means num v g -> parse_filter num (k ++ ":=" ++ v) = Ok (XCmp CEQ (k ++ ":") g).
Proof.
  intros K P M. pose proof (means_chars v g M) as (T & L1 & L2 & L3 & L4 & L5 & Lp & Lq & _).
  assert (Z : lacks "<" k /\ lacks ">" k /\ lacks "=" k /\ lacks "!" k /\ lacks ":" k /\ lacks "(" k) by (repeat split; apply plain_lacks; try assumption; cbn; tauto).
  destruct Z as (K1 & K2 & K3 & K4 & K5 & K6). assert (Tk := plain_tight k P).
  set (s := k ++ ":=" ++ v). assert (Ts : tight s) by (unfold s, tight in *; rewrite !all_app; cbn; repeat split; assumption).
  assert (T' := tight_lacks s Ts). unfold parse_filter. rewrite parse_step. cbv zeta. rewrite trim_tight by exact Ts.
  assert (St : starts "(" s = false).
  { unfold s. destruct k as [|a k]; [congruence|]. cbn. apply Ascii.eqb_neq. intros <-. now apply K6. }
  rewrite St. cbn [andb]. rewrite !cut_none by exact T'. unfold parse_comparison, contains. rewrite !cut_none by exact T'.
  assert (N : forall c sub, lacks c k -> c <> ":"%char -> c <> "="%char -> lacks c v -> cut (String c sub) s = None).
  { intros c sub A B C D. apply cut_none. unfold s, lacks in *. rewrite !all_app. cbn. repeat split; try assumption; congruence. }
  unfold operators. cbn [parse_op]. rewrite !N by (assumption || discriminate).
  assert (E : cut "=" s = Some (k ++ ":", v)).
  { unfold s. rewrite cut_skip by exact K3. change (":=" ++ v) with (":" ++ "=" ++ v). rewrite cut_skip by (cbn; repeat split; discriminate).
    rewrite cut_here by discriminate. reflexivity. }
  rewrite E. destruct k as [|a k0] eqn:EK; [congruence|]. rewrite <- EK in *.
  assert (F : bind (parse_value num (trim_space v)) (fun x => Ok (XCmp CEQ (trim_space (k ++ ":")) x)) = Ok (XCmp CEQ (k ++ ":") g)).
  { rewrite (trim_tight v T), (value_reads v g M). cbn [bind]. rewrite trim_tight; [reflexivity|]. unfold tight in *. rewrite all_app. cbn. repeat split; assumption. }
  rewrite EK in *. exact F.
Qed.
End V.
