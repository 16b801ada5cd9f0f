(** Proofs about writing entities and relations. *)
From Coq Require Import String Ascii List NArith ZArith Bool Permutation Sorted Lia ZifyBool ZifyNat.
From Coq Require Import Floats.SpecFloat.
From Verif Require Import Base Floats64 TopK StoreModel HindModel HindProofs HindProofs3 RagModel RagSpec GraphModel GraphSpec GraphProofs GraphProps GraphBatchProps ToolGraphModel ToolGraphSpec.
Import ListNotations.
Open Scope string_scope.
Open Scope list_scope.

Section Write.
Variables (trim slug : string -> string) (vec : string -> list N) (id_list : list string -> string).
Hypothesis Hvec : forall t, vec t <> [].
Local Notation known_as := (known_as trim slug).
Local Notation resolve := (resolve trim slug).
Local Notation named_or_id := (named_or_id trim).

Lemma tagged_iff s : String.prefix "entity:" s = true <-> tagged s.
Proof using Type. rewrite prefix_iff. reflexivity. Qed.
Lemma eqb_blank s : negb (String.eqb s "") = true <-> s <> "".
Proof using Type. rewrite negb_true_iff, String.eqb_neq. reflexivity. Qed.
Lemma resolve_iff id name r : resolve id name = r <-> known_as id name r.
Proof using Type.
  unfold ToolGraphModel.resolve, ToolGraphSpec.known_as. pose proof (tagged_iff id) as T1. pose proof (tagged_iff name) as T2.
  destruct (String.prefix "entity:" id).
  { assert (tagged id) by (apply T1; reflexivity). split; [intros <-; tauto|]. intros [[_ ->]|[[N _]|[N _]]]; [reflexivity|tauto|tauto]. }
  assert (N1 : ~ tagged id) by (intros H; apply T1 in H; discriminate). destruct (String.prefix "entity:" name).
  { assert (tagged name) by (apply T2; reflexivity). split; [intros <-; tauto|]. intros [[N _]|[[_ [_ ->]]|[_ [N _]]]]; [tauto|reflexivity|tauto]. }
  assert (N2 : ~ tagged name) by (intros H; apply T2 in H; discriminate). unfold entity_node.
  destruct (String.eqb_spec (trim id) "") as [E|E]; cbn [negb].
  - destruct (String.eqb_spec (trim name) "") as [E'|E']; cbn [negb].
    + split; [intros <-; tauto|]. intros [[N _]|[[_ [N _]]|[_ [_ [[N _]|[[_ [N _]]|[_ [_ ->]]]]]]]]; tauto.
    + split; [intros <-; tauto|]. intros [[N _]|[[_ [N _]]|[_ [_ [[N _]|[[_ [_ ->]]|[_ [N _]]]]]]]]; tauto.
  - split; [intros <-; tauto|]. intros [[N _]|[[_ [N _]]|[_ [_ [[_ ->]|[[N _]|[N _]]]]]]]; tauto.
Qed.
Lemma first_iff a b r : first_non_empty trim a b = r <-> or_else trim a b r.
Proof using Type.
  clear. unfold first_non_empty, or_else. destruct (String.eqb_spec (trim a) "") as [E|E]; cbn [negb]; [|split; [intros <-; tauto|intros [[_ ->]|[[N _]|[N _]]]; tauto]].
  destruct (String.eqb_spec (trim b) "") as [E'|E']; cbn [negb]; (split; [intros <-; tauto|]).
  - intros [[N _]|[[_ [N _]]|[_ [_ ->]]]]; tauto.
  - intros [[N _]|[[_ [_ ->]]|[_ [N _]]]]; tauto.
Qed.
Lemma usable_iff e : usable trim e = true <-> named_or_id e.
Proof using Type.
  unfold usable, ToolGraphSpec.named_or_id. rewrite negb_true_iff, andb_false_iff, !String.eqb_neq. reflexivity.
Qed.
Lemma resolve_blank id name : resolve id name = "" <-> (trim id = "" /\ trim name = "" /\ ~ tagged id /\ ~ tagged name).
Proof using Type.
  rewrite resolve_iff. unfold ToolGraphSpec.known_as. assert (B : forall s t, s = "" -> s <> ("entity:" ++ t)%string) by (intros s t -> E; discriminate).
  assert (T : forall s, tagged s -> s <> "") by (intros s [t ->] E; discriminate).
  split.
  - intros [[H E]|[[_ [H E]]|(N1 & N2 & [[_ E]|[[_ [_ E]]|[E1 [E2 _]]]])]]; try (destruct (T _ H); congruence); try discriminate. tauto.
  - tauto.
Qed.
Lemma usable_resolve e : named_or_id e -> resolve (te_id e) (te_name e) <> "".
Proof using Type. intros H E. apply resolve_blank in E. destruct H; tauto. Qed.

(** Properties. *)
Lemma overrides_set meta base p : NoDup (map fst meta) -> p = fold_left set_key meta base -> overrides meta base (Some p).
Proof using Type.
  intros N ->. exists (fold_left set_key meta base). split; [reflexivity|]. intros k. destruct (assoc k meta) as [v|] eqn:E.
  - apply assoc_sets_hit; auto.
  - apply assoc_sets. exact E.
Qed.
Lemma gnode_stored e : NoDup (map fst (te_meta e)) -> entity_stored trim slug vec e (entity_gnode trim slug vec e).
Proof using Type.
  intros N. unfold entity_stored, entity_gnode. cbn [n_id n_vec n_content n_type n_props]. split; [apply resolve_iff; reflexivity|]. split; [reflexivity|].
  split; [apply first_iff; reflexivity|]. split; [apply first_iff; reflexivity|]. apply overrides_set; [exact N|reflexivity].
Qed.
Lemma mention_ok c n : mentions c n (mention c n).
Proof using Type. unfold mentions, mention. cbn. repeat split. Qed.
Lemma mention_unique c n x : mentions c n x -> x = mention c n.
Proof using Type. destruct x. unfold mentions, mention. cbn. intros (-> & -> & -> & -> & -> & -> & ->). reflexivity. Qed.

(** The batches. *)
Lemma last_accepted_map {A B} (f : B -> A) (acc : option A -> Prop) (id : A -> string) (l : list B) (v : A) :
  last_accepted acc id (map (fun b => Some (f b)) l) v <-> exists l1 b l2, l = l1 ++ b :: l2 /\ v = f b /\ acc (Some (f b)) /\ forall b', In b' l2 -> acc (Some (f b')) -> id (f b') <> id (f b).
Proof using Type.
  split.
  - intros (m1 & m2 & E & A1 & R). apply map_eq_app in E as (l1 & r & -> & <- & E). destruct r as [|b l2]; [discriminate|]. cbn in E. injection E as Ev <-. subst v.
    exists l1, b, l2. split; [reflexivity|]. split; [reflexivity|]. split; [exact A1|]. intros b' Hb. apply R. apply (in_map (fun b => Some (f b))). exact Hb.
  - intros (l1 & b & l2 & -> & -> & A1 & R). exists (map (fun b => Some (f b)) l1), (map (fun b => Some (f b)) l2). rewrite map_app. split; [reflexivity|]. split; [exact A1|].
    intros w Hw. apply in_map_iff in Hw as (b' & E & Hb). injection E as <-. apply R. exact Hb.
Qed.
Lemma none_accepted_map {A B} (f : B -> A) (acc : option A -> Prop) (id : A -> string) (l : list B) (key : string) :
  none_accepted acc id (map (fun b => Some (f b)) l) key <-> forall b, In b l -> acc (Some (f b)) -> id (f b) <> key.
Proof using Type.
  split.
  - intros H b Hb. apply H. apply (in_map (fun b => Some (f b))). exact Hb.
  - intros H w Hw. apply in_map_iff in Hw as (b & E & Hb). injection E as <-. apply H. exact Hb.
Qed.
Lemma entity_accepted e : named_or_id e -> node_acceptable (Some (entity_gnode trim slug vec e)).
Proof using Hvec. intros H. eexists. split; [reflexivity|]. split; [apply usable_resolve; exact H|]. apply Hvec. Qed.

Definition pairs_of (e : tentity) : list (string * string) := map (fun c => (c, resolve (te_id e) (te_name e))) (filter (fun c => negb (String.eqb c "")) (te_chunks e)).
Lemma mentions_pairs e : mentions_of trim slug e = map (fun p => mention (fst p) (snd p)) (pairs_of e).
Proof using Type.
  unfold mentions_of, pairs_of. induction (te_chunks e) as [|c cs IH]; [reflexivity|]. cbn [flat_map filter]. rewrite IH. destruct (String.eqb c ""); reflexivity.
Qed.
Lemma asked_pairs es : asked trim slug es (flat_map pairs_of (filter (usable trim) es)).
Proof using Type.
  induction es as [|e es IH]; [constructor|]. cbn [filter]. destruct (usable trim e) eqn:U.
  - cbn [flat_map]. unfold pairs_of at 1. apply asked_more; [apply usable_iff; exact U|apply resolve_iff; reflexivity|exact IH].
  - apply asked_skip; [intros H; apply usable_iff in H; congruence|exact IH].
Qed.
Lemma all_mentions us : flat_map (mentions_of trim slug) us = map (fun p => mention (fst p) (snd p)) (flat_map pairs_of us).
Proof using Type. induction us as [|e us IH]; [reflexivity|]. cbn [flat_map]. rewrite map_app, IH, mentions_pairs. reflexivity. Qed.
Lemma pairs_nonblank us c n : (forall e, In e us -> named_or_id e) -> In (c, n) (flat_map pairs_of us) -> c <> "" /\ n <> "" /\ exists e, In e us /\ n = resolve (te_id e) (te_name e).
Proof using Type.
  intros H I. apply in_flat_map in I as (e & He & I). unfold pairs_of in I. apply in_map_iff in I as (c' & E & I). injection E as -> <-. apply filter_In in I as [_ I]. apply eqb_blank in I.
  split; [exact I|]. split; [apply usable_resolve; auto|eauto].
Qed.
Lemma split_filter {A} (p : A -> bool) (es : list A) e l1 l2 : filter p es = l1 ++ e :: l2 -> exists m1 m2, es = m1 ++ e :: m2 /\ filter p m2 = l2.
Proof using Type.
  revert l1. induction es as [|x es IH]; intros l1 E; [destruct l1; discriminate|]. cbn [filter] in E. destruct (p x).
  - destruct l1 as [|y l1]; cbn in E; injection E as -> E; [exists [], es; auto|]. destruct (IH _ E) as (m1 & m2 & -> & F). exists (y :: m1), m2. auto.
  - destruct (IH _ E) as (m1 & m2 & -> & F). exists (x :: m1), m2. auto.
Qed.
Lemma last_usable es e id : last_entity trim slug es e id <-> exists l1 l2, filter (usable trim) es = l1 ++ e :: l2 /\ resolve (te_id e) (te_name e) = id /\ forall e', In e' l2 -> resolve (te_id e') (te_name e') <> id.
Proof using Type.
  split.
  - intros (l1 & l2 & -> & U & K & R). exists (filter (usable trim) l1), (filter (usable trim) l2). rewrite filter_app. cbn [filter]. apply usable_iff in U. rewrite U. split; [reflexivity|].
    split; [apply resolve_iff; exact K|]. intros e' He E. apply filter_In in He as [He Ue]. apply (R e' He); [apply usable_iff; exact Ue|apply resolve_iff; exact E].
  - intros (l1 & l2 & E & K & R). assert (U : usable trim e = true). { apply (proj1 (filter_In (usable trim) e es)). rewrite E. apply in_or_app. right. left. reflexivity. }
    destruct (split_filter _ _ _ _ _ E) as (m1 & m2 & -> & F). exists m1, m2. split; [reflexivity|]. split; [apply usable_iff; exact U|]. split; [apply resolve_iff; exact K|].
    intros e' He Ue Ke. apply (R e'); [rewrite <- F; apply filter_In; split; [exact He|apply usable_iff; exact Ue]|apply resolve_iff; exact Ke].
Qed.
End Write.
