(** Found chunks grouped by knowledge. *)
From Coq Require Import String Ascii List NArith ZArith Bool Permutation Sorted Lia.
From Coq Require Import Floats.SpecFloat.
From Verif Require Import Base Floats64 GeoProps EncodingSpec DimensionModel SearchModel ToolTextModel ToolTextSpec ToolTextProofs RagModel RagSpec RagProps ToolGraphModel StoreModel StoreSpec StoreProps
  GraphModel GraphSpec GraphProofs GraphBatchProps KnowModel KnowSpec KnowProofs KnowProofs2 KnowProofs3 KnowProps KnowEx.
Import ListNotations.
Open Scope string_scope.
Open Scope list_scope.

Section G.
Variable I : index_ops.
Variables (snippet : string -> string) (s : store I).
Lemma counts_iff c id : counts_for c id <-> group_of c = id.
Proof using Type. unfold counts_for, group_of. destruct (String.eqb_spec (c_doc c) ""); split; intros H; [destruct H as [[A _]|[_ A]]; [contradiction|auto]|right; auto|destruct H as [[_ A]|[A _]]; [auto|contradiction]|left; auto]. Qed.
(** What one group holds after the chunks [ps]. *)
Record holds (ps : list rchunk) (h : khit) : Prop := {
  ho_best : exists l1 c l2, ps = l1 ++ c :: l2 /\ counts_for c (kh_id h) /\ kh_score h = c_score c /\
    (forall d, In d l1 -> counts_for d (kh_id h) -> flt (c_score d) (c_score c) = true) /\
    (forall d, In d l2 -> counts_for d (kh_id h) -> fle (c_score d) (c_score c) = true) /\
    (snippet (c_content c) <> "" -> kh_snippet h = snippet (c_content c));
  ho_text : exists c, In c ps /\ counts_for c (kh_id h) /\ kh_snippet h = snippet (c_content c);
  ho_chunks : NoDup (kh_chunks h) /\ forall x, In x (kh_chunks h) <-> exists c, In c ps /\ counts_for c (kh_id h) /\ RagModel.c_id c = x;
  ho_ents : forall x, In x (kh_ents h) <-> exists c, In c ps /\ counts_for c (kh_id h) /\ In x (c_ents c);
  ho_doc : ((exists c, In c ps /\ c_doc c <> "" /\ c_doc c = kh_id h) ->
            exists x, get_document I s (kh_id h) = Ok x /\ kh_title h = d_title x /\ kh_url h = d_url x /\ kh_author h = d_author x /\ kh_meta h = d_meta x) /\
           (~ (exists c, In c ps /\ c_doc c <> "" /\ c_doc c = kh_id h) -> kh_title h = "" /\ kh_url h = "" /\ kh_author h = "" /\ kh_meta h = None) }.
Definition groups (ps : list rchunk) (l : list khit) : Prop :=
  NoDup (map kh_id l) /\ (forall id, In id (map kh_id l) <-> exists c, In c ps /\ counts_for c id) /\ forall h, In h l -> holds ps h.
Lemma ex_snoc {A} (P : A -> Prop) l c : (exists x, In x (l ++ [c]) /\ P x) <-> (exists x, In x l /\ P x) \/ P c.
Proof using Type.
  split.
  - intros (x & H & Hp). apply in_app_iff in H as [H|[<-|[]]]; [left; eauto|right; exact Hp].
  - intros [(x & H & Hp)|H]; [exists x; rewrite in_app_iff; auto|exists c; rewrite in_app_iff; cbn; auto].
Qed.
(** Another chunk does not matter. *)
Lemma holds_other ps h c : holds ps h -> ~ counts_for c (kh_id h) -> holds (ps ++ [c]) h.
Proof using Type.
  intros [(l1 & b & l2 & E & B1 & B2 & B3 & B4 & B5) (t & T1 & T2) [N C] X [D1 D2]] No. constructor.
  - exists l1, b, (l2 ++ [c]). split; [rewrite E, <- app_assoc; reflexivity|]. repeat (split; [assumption|]). split; [|exact B5]. intros d Hd. apply in_app_iff in Hd as [Hd|[<-|[]]]; [apply B4; exact Hd|contradiction].
  - exists t. rewrite in_app_iff. auto.
  - split; [exact N|]. intros x. rewrite C, ex_snoc. tauto.
  - intros x. rewrite X, ex_snoc. tauto.
  - assert (Ec : ~ (c_doc c <> "" /\ c_doc c = kh_id h)) by (intros [A B]; apply No; left; auto). rewrite ex_snoc. split; [intros [H|H]; [auto|contradiction]|intros H; apply D2; tauto].
Qed.
Lemma in_ids_dec l x : in_ids l x = true <-> In x l.
Proof using Type. apply in_ids_iff. Qed.
Definition described (c : rchunk) (f : khit -> khit) : Prop :=
  (c_doc c = "" /\ forall h, f h = h) \/ (c_doc c <> "" /\ exists x, get_document I s (c_doc c) = Ok x /\ forall h, f h = describe x h).
(** A chunk joins its group. *)
Lemma joins ps h c f : (forall d, In d (ps ++ [c]) -> not_nan (c_score d)) -> described c f -> holds ps h -> counts_for c (kh_id h) -> kh_id (f (join snippet c h)) = kh_id h /\ holds (ps ++ [c]) (f (join snippet c h)).
Proof using Type.
  intros Nn F [(l1 & b & l2 & E & B1 & B2 & B3 & B4 & B5) (t & T1 & T2 & T3) [N C] X [D1 D2]] Hc.
  assert (Nc : not_nan (c_score c)) by (apply Nn; rewrite in_app_iff; cbn; auto).
  assert (Nb : not_nan (c_score b)) by (apply Nn; rewrite E, !in_app_iff; cbn; auto).
  set (h' := join snippet c h).
  assert (Id : kh_id (f h') = kh_id h) by (destruct F as [[_ F]|[_ (x & _ & F)]]; rewrite F; reflexivity).
  assert (Sc : kh_score (f h') = kh_score h') by (destruct F as [[_ F]|[_ (x & _ & F)]]; rewrite F; reflexivity).
  assert (Sn : kh_snippet (f h') = kh_snippet h') by (destruct F as [[_ F]|[_ (x & _ & F)]]; rewrite F; reflexivity).
  assert (Ch : kh_chunks (f h') = kh_chunks h') by (destruct F as [[_ F]|[_ (x & _ & F)]]; rewrite F; reflexivity).
  assert (En : kh_ents (f h') = kh_ents h') by (destruct F as [[_ F]|[_ (x & _ & F)]]; rewrite F; reflexivity).
  split; [exact Id|]. constructor; rewrite ?Id, ?Sc, ?Sn, ?Ch, ?En; cbn [h' join kh_score kh_snippet kh_chunks kh_ents].
  - change (fgt (c_score c) (kh_score h)) with (flt (kh_score h) (c_score c)). rewrite B2. destruct (flt (c_score b) (c_score c)) eqn:Lt; cbn [andb].
    + exists ps, c, []. split; [reflexivity|]. split; [exact Hc|]. split; [reflexivity|]. split; [|split; [intros d []|]].
      * intros d Hd Hg. rewrite E in Hd. apply in_app_iff in Hd as [Hd|[<-|Hd]]; [|exact Lt|].
        -- eapply flt_trans; [apply B3; auto|exact Lt].
        -- specialize (B4 d Hd Hg). assert (Nd : not_nan (c_score d)) by (apply Nn; rewrite E, !in_app_iff; cbn; auto). destruct (flt (c_score d) (c_score c)) eqn:Q; [reflexivity|]. apply not_flt_fle in Q; auto.
           exfalso. assert (fle (c_score c) (c_score b) = true) by (eapply fle_trans_num; [| | |exact Q|exact B4]; auto). rewrite fle_iff in H by auto. rewrite Lt in H. discriminate.
      * intros Ne. destruct (String.eqb_spec (snippet (c_content c)) ""); [contradiction|reflexivity].
    + exists l1, b, (l2 ++ [c]). split; [rewrite E, <- app_assoc; reflexivity|]. split; [exact B1|]. split; [reflexivity|]. split; [exact B3|]. split; [|exact B5].
      intros d Hd Hg. apply in_app_iff in Hd as [Hd|[<-|[]]]; [apply B4; auto|apply not_flt_fle; auto].
  - destruct (fgt (c_score c) (kh_score h) && negb (String.eqb (snippet (c_content c)) "")); [exists c|exists t]; rewrite in_app_iff; cbn; auto.
  - destruct (in_ids (kh_chunks h) (RagModel.c_id c)) eqn:Q.
    + apply in_ids_dec in Q. split; [exact N|]. intros x. rewrite C, ex_snoc. split; [tauto|]. intros [H|[_ <-]]; [exact H|]. apply C. exact Q.
    + assert (Nq : ~ In (RagModel.c_id c) (kh_chunks h)) by (intros A; apply in_ids_dec in A; congruence). split; [apply (Permutation_NoDup (Permutation_cons_append _ _)); constructor; auto|].
      intros x. rewrite in_app_iff, C, ex_snoc. cbn [In]. split; [intros [H|[<-|[]]]; auto|intros [H|[_ <-]]; auto].
  - intros x. rewrite in_app_iff, X, ex_snoc. tauto.
  - rewrite ex_snoc. destruct F as [[Dc F]|[Dc (x & Gx & F)]].
    + assert (Ef : f h' = h') by apply F. rewrite Ef. cbn [h' join kh_title kh_url kh_author kh_meta]. split; [intros [H|[A _]]; [auto|contradiction]|intros H; apply D2; tauto].
    + rewrite F. cbn [describe kh_title kh_url kh_author kh_meta]. assert (Ed : c_doc c = kh_id h) by (destruct Hc as [[_ A]|[A _]]; [auto|contradiction]). split.
      * intros _. exists x. rewrite <- Ed. auto.
      * intros H. destruct H. right. auto.
Qed.
Lemma new_holds ps c f : (forall d, In d ps -> ~ counts_for d (group_of c)) -> not_nan (c_score c) -> described c f -> kh_id (f (join snippet c (new_hit snippet c))) = group_of c /\ holds (ps ++ [c]) (f (join snippet c (new_hit snippet c))).
Proof using Type.
  intros No Nc F. set (h' := join snippet c (new_hit snippet c)). assert (Hc : counts_for c (group_of c)) by (apply counts_iff; reflexivity).
  assert (Id : kh_id (f h') = group_of c) by (destruct F as [[_ F]|[_ (x & _ & F)]]; rewrite F; reflexivity).
  assert (Lt : fgt (c_score c) (c_score c) = false) by (change (flt (c_score c) (c_score c) = false); destruct (flt (c_score c) (c_score c)) eqn:Q; [pose proof (flt_asym _ _ Q); congruence|reflexivity]).
  assert (Sc : kh_score (f h') = c_score c) by (destruct F as [[_ F]|[_ (x & _ & F)]]; rewrite F; cbn; rewrite Lt; reflexivity).
  assert (Sn : kh_snippet (f h') = snippet (c_content c)) by (destruct F as [[_ F]|[_ (x & _ & F)]]; rewrite F; cbn; rewrite Lt; reflexivity).
  assert (Ch : kh_chunks (f h') = [RagModel.c_id c]) by (destruct F as [[_ F]|[_ (x & _ & F)]]; rewrite F; reflexivity).
  assert (En : kh_ents (f h') = c_ents c) by (destruct F as [[_ F]|[_ (x & _ & F)]]; rewrite F; reflexivity).
  assert (Ex : forall P : rchunk -> Prop, (exists d, In d (ps ++ [c]) /\ counts_for d (group_of c) /\ P d) <-> P c).
  { intros P. rewrite ex_snoc. split; [intros [(d & Hd & Hg & _)|[_ H]]; [destruct (No d Hd Hg)|exact H]|tauto]. }
  split; [exact Id|]. constructor; rewrite ?Id, ?Sc, ?Sn, ?Ch, ?En.
  - exists ps, c, []. split; [reflexivity|]. split; [exact Hc|]. split; [reflexivity|]. split; [intros d Hd Hg; destruct (No d Hd Hg)|]. split; [intros d []|auto].
  - exists c. rewrite in_app_iff. cbn. auto.
  - split; [repeat constructor; intros []|]. intros x. rewrite Ex. cbn [In]. tauto.
  - intros x. rewrite Ex. tauto.
  - assert (Dc : (exists d, In d (ps ++ [c]) /\ c_doc d <> "" /\ c_doc d = group_of c) <-> c_doc c <> "").
    { rewrite ex_snoc. split.
      - intros [(d & Hd & A & B)|[A _]]; [|exact A]. destruct (No d Hd). left. auto.
      - intros A. right. split; [exact A|]. unfold group_of. destruct (String.eqb_spec (c_doc c) ""); [contradiction|reflexivity]. }
    rewrite Dc. destruct F as [[D0 F]|[D0 (x & Gx & F)]].
    + assert (Ef : f h' = h') by apply F. rewrite Ef. cbn. split; [intros A; contradiction|auto].
    + rewrite F. cbn [describe kh_title kh_url kh_author kh_meta]. split; [intros _|intros A; contradiction]. exists x. assert (Eg : group_of c = c_doc c) by (unfold group_of; destruct (String.eqb_spec (c_doc c) ""); [contradiction|reflexivity]). rewrite Eg. auto.
Qed.
Lemma into_ids c f l : (forall h, kh_id (f (join snippet c h)) = kh_id h) -> map kh_id (into_group snippet c f l) = if in_dec string_dec (group_of c) (map kh_id l) then map kh_id l else map kh_id l ++ [group_of c].
Proof using Type.
  intros F. induction l as [|h l IH]; cbn [into_group map].
  - destruct (in_dec _ _ _) as [[]|_]. cbn. rewrite F. reflexivity.
  - destruct (String.eqb_spec (kh_id h) (group_of c)) as [E|Ne]; cbn [map].
    + destruct (in_dec string_dec (group_of c) (kh_id h :: map kh_id l)) as [_|N]; [rewrite F; reflexivity|destruct N; left; exact E].
    + rewrite IH. destruct (in_dec string_dec (group_of c) (map kh_id l)) as [H|H], (in_dec string_dec (group_of c) (kh_id h :: map kh_id l)) as [H'|H']; auto; [destruct H'; right; exact H|destruct H' as [H'|H']; [contradiction|contradiction]].
Qed.
Lemma into_in c f l x : NoDup (map kh_id l) -> In x (into_group snippet c f l) ->
  (In x l /\ kh_id x <> group_of c) \/ (exists h, In h l /\ kh_id h = group_of c /\ x = f (join snippet c h)) \/ (~ In (group_of c) (map kh_id l) /\ x = f (join snippet c (new_hit snippet c))).
Proof using Type.
  induction l as [|h l IH]; cbn [into_group map]; intros N.
  - intros [<-|[]]. right. right. split; [intros []|reflexivity].
  - inversion_clear N as [|? ? Nh Nl]. destruct (String.eqb_spec (kh_id h) (group_of c)) as [E|Ne]; cbn [In].
    + intros [<-|H]; [right; left; exists h; auto|]. left. split; [auto|]. intros E'. apply Nh. rewrite E, <- E'. apply in_map. exact H.
    + intros [<-|H]; [left; auto|]. destruct (IH Nl H) as [[A B]|[(g & A & B)|[A B]]]; [left; auto|right; left; exists g; auto|right; right; split; [intros [C|C]; auto|exact B]].
Qed.
Lemma groups_step ps l c f : (forall d, In d (ps ++ [c]) -> not_nan (c_score d)) -> described c f -> groups ps l -> groups (ps ++ [c]) (into_group snippet c f l).
Proof using Type.
  intros Nn F (N & Ids & H).
  assert (Fid : forall h, kh_id (f (join snippet c h)) = kh_id h) by (intros h; destruct F as [[_ F]|[_ (x & _ & F)]]; rewrite F; reflexivity).
  pose proof (into_ids c f l Fid) as E. split; [|split].
  - rewrite E. destruct (in_dec _ _ _) as [_|Ni]; [exact N|]. apply (Permutation_NoDup (Permutation_cons_append _ _)). constructor; auto.
  - intros id. rewrite E, ex_snoc, <- Ids, counts_iff. destruct (in_dec _ _ _) as [Hi|Ni]; [split; [auto|intros [A| <-]; auto]|]. rewrite in_app_iff. cbn [In]. tauto.
  - intros h Hh. apply into_in in Hh; [|exact N]. destruct Hh as [[A B]|[(g & A & B & ->)|[A ->]]].
    + apply holds_other; [auto|]. rewrite counts_iff. auto.
    + apply joins; auto. apply counts_iff. auto.
    + apply new_holds; auto; [|apply Nn; rewrite in_app_iff; cbn; auto]. intros d Hd Hg. apply A. apply Ids. exists d. auto.
Qed.
Lemma grouped_ok cs : forall ps l, (forall d, In d (ps ++ cs) -> not_nan (c_score d)) -> groups ps l -> (forall c, In c cs -> c_doc c <> "" -> exists x, get_document I s (c_doc c) = Ok x) ->
  exists l', group_chunks I snippet s cs l = Ok l' /\ groups (ps ++ cs) l'.
Proof using Type.
  induction cs as [|c cs IH]; intros ps l Nn G Docs; cbn [group_chunks]; [rewrite app_nil_r; eauto|].
  assert (Ea : ps ++ c :: cs = (ps ++ [c]) ++ cs) by (rewrite <- app_assoc; reflexivity). rewrite Ea in *.
  assert (Nn' : forall d, In d (ps ++ [c]) -> not_nan (c_score d)) by (intros d Hd; apply Nn; apply in_app_iff; left; exact Hd).
  destruct (String.eqb_spec (c_doc c) "") as [E|Ne].
  - apply IH; [exact Nn| |intros; apply Docs; [right; auto|auto]]. apply groups_step; auto. left. auto.
  - destruct (Docs c (or_introl eq_refl) Ne) as [x Gx]. rewrite Gx. cbn [bind]. apply IH; [exact Nn| |intros; apply Docs; [right; auto|auto]]. apply groups_step; auto. right. split; [exact Ne|]. exists x. auto.
Qed.
Lemma grouped_err cs : forall l c, In c cs -> c_doc c <> "" -> (forall x, get_document I s (c_doc c) <> Ok x) -> forall l', group_chunks I snippet s cs l <> Ok l'.
Proof using Type.
  induction cs as [|d cs IH]; intros l c Hc Ne No l'; [destruct Hc|]. cbn [group_chunks]. destruct Hc as [->|Hc].
  - destruct (String.eqb_spec (c_doc c) ""); [contradiction|]. destruct (get_document I s (c_doc c)) as [x| |] eqn:G; cbn [bind]; [destruct (No x eq_refl)|discriminate|discriminate].
  - destruct (String.eqb (c_doc d) ""); [eapply IH; eauto|]. destruct (get_document I s (c_doc d)); cbn [bind]; [eapply IH; eauto|discriminate|discriminate].
Qed.
End G.

Lemma by_hit_weak l : (forall h, In h l -> not_nan (kh_score h)) -> weak_order_on by_hit l.
Proof.
  intros Nn. assert (W : weak_order_on by_thit (map (fun h => (kh_id h, kh_score h)) l)) by (apply by_thit_weak; intros x Hx; apply in_map_iff in Hx as (h & <- & Hh); apply Nn; exact Hh).
  destruct W as [W1 W2]. assert (In' : forall h, In h l -> In (kh_id h, kh_score h) (map (fun h => (kh_id h, kh_score h)) l)) by (intros h Hh; apply in_map_iff; exists h; auto). split.
  - intros x y Hx Hy. exact (W1 _ _ (In' x Hx) (In' y Hy)).
  - intros x y z Hx Hy Hz. exact (W2 _ _ _ (In' x Hx) (In' y Hy) (In' z Hz)).
Qed.
(** Grouping the chunks a search found: one hit for each knowledge that chunks count for, each
    summing up exactly those chunks, best first; an error if a document named is not stored. *)
Theorem knowledge_hits_exact : forall I trim ssort snippet srt (s : store I) cs,
  sort_ok String.ltb ssort -> sort_ok by_hit srt -> (forall c, In c cs -> not_nan (c_score c)) ->
  ((forall c, In c cs -> c_doc c <> "" -> exists x, get_document I s (c_doc c) = Ok x) ->
   exists hs, aggregate I trim ssort snippet srt s cs = Ok hs /\
     NoDup (map kh_id hs) /\ (forall id, In id (map kh_id hs) <-> exists c, In c cs /\ counts_for c id) /\
     (forall h, In h hs -> sums_up I trim snippet s cs h) /\ sorted_by before hs) /\
  ((exists c, In c cs /\ c_doc c <> "" /\ forall x, get_document I s (c_doc c) <> Ok x) -> forall hs, aggregate I trim ssort snippet srt s cs <> Ok hs).
Proof.
  intros I trim ssort snippet srt s cs Ss Sh Nn. split.
  - intros Docs. assert (G0 : groups I snippet s [] []) by (split; [constructor|]; split; [intros id; split; [intros []|intros (c & [] & _)]|intros h []]).
    destruct (grouped_ok I snippet s cs [] [] Nn G0 Docs) as (l & El & N & Ids & H). cbn [app] in *. unfold aggregate. rewrite El. cbn [bind]. eexists. split; [reflexivity|].
    set (l2 := map (finish_hit trim ssort) l). destruct (Sh l2) as [P So].
    assert (E2 : map kh_id l2 = map kh_id l) by (unfold l2; rewrite map_map; reflexivity).
    assert (H2 : forall h, In h l2 -> sums_up I trim snippet s cs h).
    { intros h Hh. apply in_map_iff in Hh as (g & <- & Hg). destruct (H g Hg) as [B T C X D]. destruct (unique_sorted_ok trim ssort (kh_ents g) Ss) as (U1 & U2 & U3). constructor; cbn [finish_hit kh_id kh_score kh_snippet kh_chunks kh_ents kh_title kh_url kh_author kh_meta]; auto.
      split; [exact U1|]. split; [exact U2|]. intros x. rewrite U3, X. tauto. }
    assert (Nh : forall h, In h l2 -> not_nan (kh_score h)).
    { intros h Hh. destruct (H2 h Hh) as [(l1 & c & l3 & E & _ & B2 & _) _ _ _ _]. rewrite B2. apply Nn. rewrite E, in_app_iff. cbn. auto. }
    split; [eapply Permutation_NoDup; [apply Permutation_map; exact P|]; rewrite E2; exact N|]. split.
    + intros id. rewrite <- Ids, <- E2. split; apply Permutation_in; [apply Permutation_sym|]; apply Permutation_map; exact P.
    + split; [intros h Hh; apply H2; eapply Permutation_in; [apply Permutation_sym; exact P|exact Hh]|].
      specialize (So (by_hit_weak l2 Nh)). revert So. unfold sorted_by.
      assert (Eq : forall a b, In a l2 -> In b l2 -> by_hit a b = before a b). { intros a b Ha Hb. apply (by_better_eq (kh_id a, kh_score a) (kh_id b, kh_score b)); cbn; apply Nh; auto. }
      clear - P Eq. assert (Inc : forall h, In h (srt l2) -> In h l2) by (intros h; apply Permutation_in, Permutation_sym; exact P). revert Inc. generalize (srt l2) as m. intros m. intros Inc So.
      induction So as [|a m' So' IH Fa]; constructor.
      * apply IH. intros h Hh. apply Inc. right. exact Hh.
      * apply Forall_forall. intros b Hb. rewrite Forall_forall in Fa. specialize (Fa b Hb). cbv beta in *. rewrite <- Eq; [exact Fa|apply Inc; right; exact Hb|apply Inc; left; reflexivity].
  - intros (c & Hc & Ne & No) hs. unfold aggregate. destruct (group_chunks I snippet s cs []) as [l| |] eqn:E; cbn [bind]; [|discriminate|discriminate]. destruct (grouped_err I snippet s cs [] c Hc Ne No l E).
Qed.
Definition found (id doc text : string) (n : Z) (es : list string) : rchunk := {| RagModel.c_id := id; c_doc := doc; c_content := text; c_score := f64_of_Z n; c_base := f_zero; c_rerank := f_zero; c_ents := es |}.
Definition hit_sort := ex_sort by_hit.
Example knowledge_hits_ex :
  let cs := [found "chunk:a:000" "a" "Adax" 1 ["Ada"]; found "lone" "" "text" 3 []; found "chunk:a:001" "a" "Bobx" 2 ["Bob"; "Ada"]; found "chunk:a:000" "a" "Adax" 2 ["Ada"]] in
  (forall c, In c cs -> not_nan (c_score c)) /\ (forall c, In c cs -> c_doc c <> "" -> exists x, get_document no_index (k_store no_index kdb1) (c_doc c) = Ok x) /\
  aggregate no_index same str_sort same hit_sort (k_store no_index kdb1) cs =
    Ok [{| kh_id := "lone"; kh_title := ""; kh_url := ""; kh_author := ""; kh_meta := None; kh_score := f64_of_Z 3; kh_snippet := "text"; kh_chunks := ["lone"]; kh_ents := [] |};
        {| kh_id := "a"; kh_title := "T"; kh_url := "u"; kh_author := "w"; kh_meta := Some [("k", "v")]; kh_score := f64_of_Z 2; kh_snippet := "Bobx";
           kh_chunks := ["chunk:a:000"; "chunk:a:001"]; kh_ents := ["Ada"; "Bob"] |}].
Proof.
  cbv zeta. split; [intros c Hc; repeat (destruct Hc as [<-|Hc]; [discriminate|]); destruct Hc|]. split.
  - intros c Hc Ne. assert (E : c_doc c = "a") by (repeat (destruct Hc as [<-|Hc]; [try reflexivity; destruct Ne; reflexivity|]); destruct Hc). rewrite E. eexists. vm_compute. reflexivity.
  - vm_compute. reflexivity.
Qed.
Print Assumptions knowledge_hits_exact.
(** A search over several documents answers when one of the found chunks has lost its document
    — refuted: the whole search fails. *)
Theorem knowledge_search_partial_failure_refuted : exists (s : store no_index) cs c e,
  In c cs /\ (exists x, get_document no_index s (c_doc c) = Ok x) /\ aggregate no_index same str_sort same hit_sort s cs = Err e.
Proof.
  exists (k_store no_index kdb1), [found "chunk:a:000" "a" "Adax" 1 []; found "x" "lost" "" 1 []], (found "chunk:a:000" "a" "Adax" 1 []). eexists. split; [left; reflexivity|]. split; [eexists; vm_compute; reflexivity|]. vm_compute. reflexivity.
Qed.
Print Assumptions knowledge_search_partial_failure_refuted.
(** The snippet is at most 180 bytes: the text itself when short, else its first 177 bytes and dots. *)
Theorem snippet_exact : forall fields content,
  (String.length (fields content) <= 180 -> compact fields content = fields content) /\
  (180 < String.length (fields content) -> String.length (compact fields content) = 180 /\ exists rest, fields content = (String.substring 0 177 (compact fields content) ++ rest)%string).
Proof.
  assert (Sub : forall n t, n <= String.length t -> String.length (String.substring 0 n t) = n /\ exists r, t = (String.substring 0 n t ++ r)%string).
  { induction n as [|n IH]; intros t L; [destruct t; split; [reflexivity|exists ""; reflexivity|reflexivity|eexists; reflexivity]|]. destruct t as [|a t]; [cbn in L; lia|]. cbn in L. destruct (IH t ltac:(lia)) as [E [r R]]. cbn. split; [lia|]. exists r. rewrite R at 1. reflexivity. }
  assert (Len : forall a b, String.length (a ++ b)%string = String.length a + String.length b) by (induction a as [|x a IH]; intros b; [reflexivity|cbn; rewrite IH; reflexivity]).
  assert (Pre : forall a b, String.substring 0 (String.length a) (a ++ b)%string = a) by (induction a as [|x a IH]; intros b; [destruct b; reflexivity|cbn; rewrite IH; reflexivity]).
  intros fields content. unfold compact. destruct (Nat.leb_spec (String.length (fields content)) 180) as [L|L]; (split; [intros L'|intros L']); try lia; [reflexivity|].
  destruct (Sub 177 (fields content) ltac:(lia)) as [E [r R]]. split; [rewrite Len, E; reflexivity|]. exists r. rewrite <- E at 1. rewrite Pre. exact R.
Qed.
Example snippet_ex : compact (fun s => s) "short" = "short".
Proof. reflexivity. Qed.
Print Assumptions snippet_exact.
