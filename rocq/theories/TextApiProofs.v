From Coq Require Import String Ascii List NArith ZArith Bool Lia Permutation Sorted.
From Coq Require Import Floats.SpecFloat.
From Verif Require Import Base Floats64 TopK EncodingModel DimensionModel StoreModel StoreSpec StoreProofs StoreInv StoreProofs2 StoreProofs3
  SearchModel SearchSpec SearchProofs SqlModel FilterModel FilterSpec FilterProofs FilterProofs2 AdvSearchModel AdvSearchSpec AdvSearchProofs
  TextApiModel TextApiSpec PlaceProofs.
Import ListNotations.
Open Scope string_scope.
Open Scope list_scope.

(** The best of a list without ties. *)
Lemma topk_unique {A} (better : A -> A -> bool) : forall L n all out,
  is_topk better n all out -> Permutation all L -> StronglySorted (fun a b => better a b = true) L -> out = firstn n L.
Proof.
  induction L as [|x L IH]; intros n all out (rest & P & Len & Srt & B) PL S.
  - apply Permutation_sym, Permutation_nil in PL. subst all. apply Permutation_nil in P. apply app_eq_nil in P as [-> _]. now destruct n.
  - pose proof (Permutation_length PL) as E. destruct out as [|y out].
    + cbn [length] in *. destruct n; [reflexivity|]. exfalso. lia.
    + assert (PL' : Permutation (x :: L) (y :: out ++ rest)) by (eapply Permutation_trans; [apply Permutation_sym, PL|exact P]).
      inversion S as [|? ? S1 S2]; subst. inversion Srt as [|? ? T1 T2]; subst.
      assert (Hxy : y = x).
      { assert (Hy : In y (x :: L)) by (eapply Permutation_in; [apply Permutation_sym, PL'|now left]). destruct Hy as [Hy|Hy]; [now symmetry|].
        rewrite Forall_forall in S2. specialize (S2 y Hy). assert (Hx : In x (y :: out ++ rest)) by (eapply Permutation_in; [exact PL'|now left]).
        destruct Hx as [Hx|Hx]; [exact Hx|]. exfalso. apply in_app_or in Hx as [Hx|Hx].
        - rewrite Forall_forall in T2. specialize (T2 x Hx). congruence.
        - specialize (B y x (or_introl eq_refl) Hx). congruence. }
      subst y. apply Permutation_cons_inv in PL'. destruct n as [|n]; [cbn in Len; lia|]. cbn [firstn]. f_equal.
      apply (IH n (out ++ rest) out); [|now apply Permutation_sym|exact S1].
      exists rest. split; [reflexivity|]. split; [|split; [exact T1|intros a b Ha Hb; apply B; [now right|exact Hb]]].
      pose proof (Permutation_length P) as Lp. cbn [length app] in *. lia.
Qed.

(** Places. *)
Lemma places_in l : forall n id k, In (id, k) (places n l) <-> exists j, nth_error l j = Some (Some id) /\ k = n + j.
Proof.
  induction l as [|[x|] l IH]; intros n id k; cbn [places].
  - split; [intros []|intros ([|j] & H & _); discriminate].
  - cbn [In]. rewrite IH. split.
    + intros [[= -> ->]|(j & H & ->)]; [exists 0; split; [reflexivity|lia]|exists (S j); split; [exact H|lia]].
    + intros ([|j] & H & ->); [left; cbn in H; injection H as ->; f_equal; lia|right; exists j; split; [exact H|lia]].
  - rewrite IH. split.
    + intros (j & H & ->). exists (S j). split; [exact H|lia].
    + intros ([|j] & H & ->); [discriminate|]. exists j. split; [exact H|lia].
Qed.
Lemma places_sorted l : forall n, StronglySorted (fun a b : string * nat => snd a < snd b) (places n l).
Proof.
  induction l as [|[x|] l IH]; intros n; cbn [places]; [constructor| |apply IH]. constructor; [apply IH|].
  apply Forall_forall. intros [id k] H. apply places_in in H as (j & _ & ->). cbn. lia.
Qed.
Lemma sorted_filter {A} (R : A -> A -> Prop) p (l : list A) : StronglySorted R l -> StronglySorted R (filter p l).
Proof.
  induction 1 as [|a l S IH F]; [constructor|]. cbn. destruct (p a); [|exact IH]. constructor; [exact IH|].
  apply Forall_forall. intros b Hb. apply filter_In in Hb as [Hb _]. rewrite Forall_forall in F. auto.
Qed.
Lemma sorted_map {A B} (R : A -> A -> Prop) (Q : B -> B -> Prop) (f : A -> B) (l : list A) :
  (forall a b, In a l -> In b l -> R a b -> Q (f a) (f b)) -> StronglySorted R l -> StronglySorted Q (map f l).
Proof.
  intros H S. revert H. induction S as [|a l S IH F]; intros H; [constructor|]. cbn. constructor.
  - apply IH. intros b c Hb Hc. apply H; now right.
  - apply Forall_forall. intros y Hy. apply in_map_iff in Hy as (b & <- & Hb). apply H; [now left|now right|]. rewrite Forall_forall in F. auto.
Qed.

Section P.
Variable I : index_ops.
Notation store := (store I).

Definition flat_scorer : scorer := {| sc_sim := fun _ _ => f_zero; sc_text := None; sc_enabled := false; sc_default := f_zero |}.
Definition entry (s : store) (p : string * nat) : scored :=
  match get_by_id I s (fst p) with
  | Ok e => (without_acl e, place_score (snd p))
  | _ => (text_row "" "" "" None None, f_zero)
  end.
Lemma get_id (s : store) id e : get_by_id I s id = Ok e -> e_id e = id.
Proof.
  intros H. apply get_ok_inv in H as (r & _ & _ & H & _ & _ & K & _). unfold scan_get in H. destruct (decode_vector (r_blob r)); try discriminate. cbn in H. injection H as <-. exact K.
Qed.
Lemma text_only_lemma srt shuffle noise m sc ft (s : store) envs query coll k th l :
  sort_ok by_score srt -> (forall l, Permutation l (shuffle l)) -> reachable I envs s -> st_closed I s = false -> query <> "" ->
  l = match ft query with Some h => map fst h | None => [] end ->
  hits_distinct l -> (60 + Z.of_nat (length l) <= 2 ^ 51)%Z ->
  let n := Z.to_nat (if Z.leb k 0 then 10 else k) in
  search_text_only I srt shuffle noise m sc ft s query coll k th = Ok (map (entry s) (firstn n (stored_places I s (firstn (3 * n) l)))).
Proof.
  intros Hs Hsh R C Q Hl D Len n. unfold search_text_only. destruct (String.eqb_spec query "") as [E|_]; [congruence|]. cbv zeta.
  set (k' := if Z.leb k 0 then 10%Z else k) in *. assert (Kp : (0 < k')%Z) by (unfold k'; destruct (Z.leb_spec k 0); lia).
  set (o := {| o_coll := coll; o_topk := k'; o_filter := []; o_threshold := th; o_textw := f_zero; o_qtext := "" |}).
  set (o' := {| o_coll := coll; o_topk := k'; o_filter := []; o_threshold := f_zero; o_textw := f_zero; o_qtext := "" |}).
  assert (Eq : hybrid_search I srt shuffle noise m sc (plain_fts ft) s [] query o f_zero = hybrid_search I srt shuffle noise m flat_scorer (plain_fts ft) s [] query o' f_zero) by reflexivity.
  rewrite Eq. destruct (hybrid_search I srt shuffle noise m flat_scorer (plain_fts ft) s [] query o' f_zero) as [out| |] eqn:H;
    [|exfalso; unfold hybrid_search in H; rewrite C in H; discriminate|exfalso; unfold hybrid_search in H; rewrite C in H; discriminate].
  f_equal.
  destruct (hybrid_spec I srt shuffle noise m flat_scorer (plain_fts ft) s envs [] query o' f_zero out Hs Hsh R) as (vres & all & V & _ & N & A & T & _); [| | |exact H|].
  - intros w id e _ _. discriminate.
  - discriminate.
  - intros l0 E. unfold plain_fts in E. destruct (ft query) as [h|]; [|discriminate]. injection E as <-. now subst l.
  - specialize (V eq_refl). subst vres.
    assert (Hu : hits_used (plain_fts ft query) query o' = firstn (3 * n) l).
    { unfold hits_used, plain_fts. subst l. destruct (ft query) as [h|]; [|now rewrite firstn_nil]. destruct (String.eqb_spec query "") as [E|_]; [congruence|].
      change (o_topk o') with k'. destruct (Z.ltb_spec 0 k'); [|lia]. f_equal. unfold n. lia. }
    rewrite Hu in A. change (rrf_constant f_zero) with (f64_of_Z 60) in A. cbn [map] in A. set (hits := firstn (3 * n) l) in *.
    assert (Dh : hits_distinct hits).
    { intros i j id Hi Hj. apply (D i j id).
      - unfold hits in Hi. rewrite <- Hi. symmetry. destruct (Nat.lt_ge_cases i (3 * n)) as [Lt|Ge]; [|rewrite (proj2 (nth_error_None _ _)) in Hi; [discriminate|rewrite firstn_length; lia]].
        clear - Lt. revert i Lt. generalize (3 * n). intros m. revert l. induction m as [|m IH]; intros l i Lt; [lia|]. destruct l as [|a l]; [now destruct i|]. destruct i; [reflexivity|]. cbn. apply IH. lia.
      - unfold hits in Hj. rewrite <- Hj. symmetry. destruct (Nat.lt_ge_cases j (3 * n)) as [Lt|Ge]; [|rewrite (proj2 (nth_error_None _ _)) in Hj; [discriminate|rewrite firstn_length; lia]].
        clear - Lt. revert j Lt. generalize (3 * n). intros m. revert l. induction m as [|m IH]; intros l i Lt; [lia|]. destruct l as [|a l]; [now destruct i|]. destruct i; [reflexivity|]. cbn. apply IH. lia. }
    assert (Lh : forall j x, nth_error hits j = Some x -> (60 + Z.of_nat (S j) <= 2 ^ 51)%Z).
    { intros j x Hj. assert (j < length hits) by (apply nth_error_Some; congruence). unfold hits in *. rewrite firstn_length in *. lia. }
    assert (A' : forall e x, In (e, x) all <-> exists e0 j, get_by_id I s (e_id e) = Ok e0 /\ e = without_acl e0 /\ nth_error hits j = Some (Some (e_id e)) /\ x = place_score (S j)).
    { intros e x. rewrite A. split.
      - intros (e0 & G & Ee & F). exists e0. inversion F as [i j Hi|i Hi|j _ Hj]; subst x; [destruct i; discriminate|destruct i; discriminate|].
        exists j. rewrite place_eq by (eapply Lh; exact Hj). auto.
      - intros (e0 & j & G & Ee & Hj & ->). exists e0. split; [exact G|]. split; [exact Ee|]. rewrite <- place_eq by (eapply Lh; exact Hj). apply fused_keyword; [easy|exact Hj]. }
    clear A.
    set (L := map (entry s) (stored_places I s hits)).
    assert (HL : forall e x, In (e, x) L <-> exists e0 j, get_by_id I s (e_id e) = Ok e0 /\ e = without_acl e0 /\ nth_error hits j = Some (Some (e_id e)) /\ x = place_score (S j)).
    { intros e x. unfold L, stored_places. rewrite in_map_iff. split.
      - intros ([id p] & E & Hp). apply filter_In in Hp as [Hp Hst]. apply places_in in Hp as (j & Hj & ->). unfold is_stored in Hst. unfold entry in E. cbn [fst snd] in *.
        destruct (get_by_id I s id) as [e0| |] eqn:G; try discriminate. injection E as <- <-. pose proof (get_id s id e0 G) as Gid. exists e0, j. cbn [without_acl e_id]. rewrite Gid. auto.
      - intros (e0 & j & G & -> & Hj & ->). exists (e_id (without_acl e0), 1 + j). split; [unfold entry; cbn [fst snd]; rewrite G; reflexivity|].
        apply filter_In. split; [apply places_in; eauto|]. unfold is_stored. cbn [fst]. now rewrite G. }
    assert (SL : StronglySorted (fun a b : scored => by_score a b = true) L).
    { unfold L. apply (sorted_map (fun a b : string * nat => snd a < snd b)); [|apply sorted_filter, places_sorted].
      intros [ida a] [idb b] Ha Hb Hab. apply filter_In in Ha as [Ha Sa]. apply filter_In in Hb as [Hb Sb]. unfold is_stored in *. cbn [fst snd] in *. apply places_in in Ha as (ja & Hja & ->). apply places_in in Hb as (jb & Hjb & ->).
      unfold entry, by_score, fgt. cbn [fst snd]. destruct (get_by_id I s ida); try discriminate. destruct (get_by_id I s idb); try discriminate. cbn [snd].
      apply place_less; [exact Hab|]. apply (Lh jb _ Hjb). }
    assert (P : Permutation all L).
    { apply NoDup_Permutation.
      - apply (NoDup_map_inv (fun x : scored => e_id (fst x))). exact N.
      - revert SL. generalize L. clear. intros L S0. induction S0 as [|a l S IH F]; constructor; [|exact IH]. intros Ha. rewrite Forall_forall in F. specialize (F a Ha). unfold by_score, fgt in F. rewrite flt_irrefl in F. discriminate.
      - intros [e x]. rewrite A', HL. reflexivity. }
    assert (Nn : Forall (fun x : scored => not_nan (snd x)) all).
    { apply Forall_forall. intros [e x] Hx. apply A' in Hx as (e0 & j & _ & _ & Hj & ->). apply place_not_nan. apply (Lh j _ Hj). }
    specialize (T Nn). assert (Lc : limit_count o' all = n) by (unfold limit_count; change (o_topk o') with k'; destruct (Z.ltb_spec 0 k'); [reflexivity|lia]).
    rewrite Lc in T. rewrite (topk_unique by_score L n all out T P SL). unfold L. now rewrite firstn_map.
Qed.
End P.
