From Coq Require Import String List NArith ZArith Bool Lia Permutation Sorted.
From Coq Require Import Floats.SpecFloat.
From Verif Require Import Base Floats64 StoreModel StoreSpec GraphModel GraphSpec GraphProofs GraphBfsProofs.
Import ListNotations.
Open Scope string_scope.
Open Scope list_scope.
From Coq Require Import ZifyBool ZifyNat ZifyN.

Definition step_out (d : gdb) (x y : string) : Prop := exists e, In e (g_edges d) /\ ge_from e = x /\ ge_to e = y.
Lemma walk_trail d x es y : walk d x es y -> trail (step_out d) x (map ge_to es) y.
Proof. induction 1 as [x|x e p y He Hf W IH]; cbn; [constructor|]. econstructor; eauto. exists e; auto. Qed.
Lemma trail_walk d x p y : trail (step_out d) x p y -> exists es, walk d x es y /\ length es = length p.
Proof.
  induction 1 as [x|x w p y [e [He [Hf Ht]]] T [es [W L]]]; [exists []; split; constructor|].
  exists (e :: es). split; [|cbn; lia]. subst. econstructor; eauto.
Qed.
Lemma walk_snoc d x es y e : walk d x es y -> In e (g_edges d) -> ge_from e = y -> walk d x (es ++ [e]) (ge_to e).
Proof. induction 1 as [x|x e' p y He Hf W IH]; intros H E; cbn; econstructor; eauto. constructor. Qed.
Lemma hops_trail d dir ts n x y : hops d dir ts n x y <-> exists p, trail (hop d dir ts) x p y /\ length p = n.
Proof.
  split.
  - induction 1 as [x|n x y z H Hs [p [T L]]]; [exists []; split; constructor|].
    exists (y :: p). split; [econstructor; eauto|cbn; lia].
  - intros [p [T <-]]. induction T; cbn; econstructor; eauto.
Qed.

(** * Counting edges not yet used *)
Definition fresh (f : gedge -> string) (seen : list string) (l : list gedge) : nat :=
  length (filter (fun e => negb (in_ids seen (f e))) l).
Lemma fresh_split f seen x l : ~ In x seen ->
  (fresh f (x :: seen) l + length (filter (fun e => String.eqb (f e) x) l) = fresh f seen l)%nat.
Proof.
  intros H. unfold fresh. induction l as [|e l IH]; [reflexivity|]. cbn [filter].
  replace (in_ids (x :: seen) (f e)) with (String.eqb (f e) x || in_ids seen (f e))%bool by reflexivity.
  destruct (String.eqb_spec (f e) x) as [E|E]; cbn [orb negb].
  - rewrite E, (proj2 (in_ids_false seen x) H). cbn [negb length]. lia.
  - destruct (in_ids seen (f e)); cbn [negb length]; lia.
Qed.
Lemma fresh_le f seen l : (fresh f seen l <= length l)%nat.
Proof. unfold fresh. induction l as [|e l IH]; cbn; auto. destruct (negb _); cbn; lia. Qed.
Lemma filter_or_le {A} (p q : A -> bool) l : (length (filter (fun x => p x || q x) l) <= length (filter p l) + length (filter q l))%nat.
Proof. induction l as [|x l IH]; cbn; auto. destruct (p x), (q x); cbn; lia. Qed.
Lemma filter_le {A} (p : A -> bool) l : (length (filter p l) <= length l)%nat.
Proof. induction l as [|x l IH]; cbn; auto. destruct (p x); cbn; lia. Qed.

Section Trav.
Variables (ord : string -> list gedge -> list gedge) (d : gdb).
Hypothesis Ord : any_order ord.
Hypothesis W : weights_numbers d.

Lemma get_edges_ok id dir : known_direction dir = true ->
  exists es, get_edges ord d id dir = Ok es /\ Permutation es (filter (touches dir id) (g_edges d)).
Proof.
  intros K. unfold get_edges. rewrite K. cbn [negb].
  pose proof (Ord id (filter (touches dir id) (g_edges d))) as P.
  replace (forallb readable _) with true; [eauto|].
  symmetry. apply forallb_forall. intros e He. apply (Permutation_in _ P) in He. apply filter_In in He as [He _].
  unfold readable. specialize (W e He). unfold not_nan in W. destruct (ge_weight e); auto; contradiction.
Qed.
Lemma get_edge_ok e : unique_ids d -> In e (g_edges d) -> get_edge d (ge_id e) = Ok e.
Proof.
  intros U He. unfold get_edge. rewrite (proj2 (find_edge d (ge_id e) e U) (conj He eq_refl)).
  unfold readable. specialize (W e He). unfold not_nan in W. destruct (ge_weight e); auto; contradiction.
Qed.
Lemma get_node_ok n : unique_ids d -> In n (g_nodes d) -> get_node d (n_id n) = Ok n.
Proof. intros U Hn. unfold get_node. rewrite (proj2 (find_node d (n_id n) n U) (conj Hn eq_refl)). auto. Qed.
Lemma read_edges es : unique_ids d -> incl es (g_edges d) -> read_all (get_edge d) (map ge_id es) = Ok es.
Proof.
  intros U. induction es as [|e es IH]; intros I; cbn; auto.
  rewrite get_edge_ok; auto; [|apply I; left; auto]. cbn. rewrite IH; auto. intros x Hx. apply I. right; auto.
Qed.
Lemma read_nodes ids : unique_ids d -> (forall x, In x ids -> has_node d x) ->
  exists ns, read_all (get_node d) ids = Ok ns /\ map n_id ns = ids /\ incl ns (g_nodes d).
Proof.
  intros U. induction ids as [|x ids IH]; intros H; cbn; [exists []; repeat split; intros ? []|].
  destruct (H x (or_introl eq_refl)) as [n [Hn <-]]. rewrite get_node_ok; auto. cbn.
  destruct IH as [ns [-> [E I]]]; [intros y Hy; apply H; right; auto|]. cbn.
  exists (n :: ns). split; auto. split; [cbn; congruence|]. intros m [<-|Hm]; auto.
Qed.

(** * ShortestPath *)
Variables from to : string.
Definition item_ok (it : item) : Prop :=
  exists es, walk d from es (i_node it) /\ i_edges it = map ge_id es /\ i_path it = from :: map ge_to es /\
    i_distance it = Z.of_nat (length es) /\ i_weight it = fold_left f64_add (map ge_weight es) f_zero.
Definition key (it : item) : string * Z := (i_node it, i_distance it).

Lemma extend_ok it e : item_ok it -> In e (g_edges d) -> ge_from e = i_node it -> item_ok (extend it e).
Proof.
  intros [es [Wk [E1 [E2 [E3 E4]]]]] He Hf. exists (es ++ [e]). unfold extend; cbn [i_node i_edges i_path i_distance i_weight].
  split; [eapply walk_snoc; eauto|]. rewrite !map_app, app_length, fold_left_app, E1, E2, E3, E4. cbn. repeat split. lia.
Qed.

Lemma path_loop_ok fuel : forall queue seen,
  Forall item_ok queue -> inv (step_out d) from to (fun _ => True) (map key queue) seen ->
  (length queue + fresh ge_from seen (g_edges d) < fuel)%nat ->
  (exists it, item_ok it /\ i_node it = to /\ (forall p, trail (step_out d) from p to -> (i_distance it <= Z.of_nat (length p))%Z) /\
     path_loop ord fuel d to queue seen = path_of d it) \/
  (path_loop ord fuel d to queue seen = Err ENotFound /\ forall p, ~ trail (step_out d) from p to).
Proof.
  induction fuel as [|fuel IH]; intros queue seen F I L; [lia|].
  cbn [path_loop]. destruct queue as [|it q].
  - right. split; auto. intros p T. apply (inv_empty _ _ _ _ _ _ I T). auto.
  - inversion F as [|? ? Fi Fq]; subst. cbn [map] in I. unfold key at 1 in I.
    destruct (String.eqb_spec (i_node it) to) as [E|E].
    + left. exists it. split; auto. split; auto. split; auto.
      intros p T. rewrite E in I. exact (inv_target _ _ _ _ _ _ _ _ I T Logic.I).
    + destruct (in_ids seen (i_node it)) eqn:S.
      * apply IH; auto; [|cbn [length] in L; lia]. eapply inv_seen; eauto. apply in_ids_iff; auto.
      * apply in_ids_false in S.
        destruct (get_edges_ok (i_node it) "out" eq_refl) as [es [-> P]].
        assert (Hes : forall e, In e es <-> In e (g_edges d) /\ ge_from e = i_node it).
        { intros e. split.
          - intros He. apply (Permutation_in _ P) in He. apply filter_In in He as [He T]. apply String.eqb_eq in T. auto.
          - intros [He T]. apply (Permutation_in _ (Permutation_sym P)). apply filter_In. split; auto. apply String.eqb_eq; auto. }
        apply IH.
        -- apply Forall_app. split; auto. apply Forall_forall. intros x Hx. apply in_map_iff in Hx as [e [<- He]].
           apply filter_In in He as [He _]. apply Hes in He as [He T]. apply extend_ok; auto.
        -- rewrite map_app, map_map.
           replace (map (fun x => key (extend it x)) _)
             with (map (fun y => (y, (i_distance it + 1)%Z)) (map ge_to (filter (fun e => negb (in_ids (i_node it :: seen) (ge_to e))) es)))
             by (rewrite map_map; reflexivity).
           eapply inv_expand; eauto.
           intros y [e [He [Hf Ht]]] N. apply in_map_iff. exists e. split; auto. apply filter_In. split; [apply Hes; auto|].
           rewrite Ht. apply negb_true_iff, in_ids_false. auto.
        -- rewrite app_length, map_length. cbn [length] in L.
           pose proof (fresh_split ge_from seen (i_node it) (g_edges d) S) as Sp.
           pose proof (filter_le (fun e => negb (in_ids (i_node it :: seen) (ge_to e))) es) as Le.
           pose proof (Permutation_length P) as Pl.
           replace (filter (fun e => String.eqb (ge_from e) (i_node it)) (g_edges d)) with (filter (touches "out" (i_node it)) (g_edges d)) in Sp by reflexivity.
           lia.
Qed.

Lemma shortest_path_ok : fine d ->
  match shortest_path ord d from to with
  | Ok r => exists es, walk d from es to /\ (forall es', walk d from es' to -> (length es <= length es')%nat) /\
              p_edges r = es /\ map n_id (p_nodes r) = from :: map ge_to es /\ incl (p_nodes r) (g_nodes d) /\
              p_distance r = Z.of_nat (length es) /\ p_weight r = fold_left f64_add (map ge_weight es) f_zero
  | Err _ => ~ has_node d from \/ forall es, ~ walk d from es to
  | Panic => False
  end.
Proof.
  intros [U D]. unfold shortest_path. destruct (String.eqb_spec from to) as [E|E].
  - subst to. unfold get_node. destruct (find (node_is from) (g_nodes d)) as [n|] eqn:Fn; cbn.
    + apply (find_node d from n U) in Fn as [Hn En]. exists []. repeat split; cbn; try constructor; try lia; try congruence.
      intros m [<-|[]]. auto.
    + left. apply find_node_none; auto.
  - match goal with |- context [path_loop ord ?f d to ?q ?s] => destruct (path_loop_ok f q s) as [H|H] end.
    + constructor; [|constructor]. exists []. cbn. repeat split. constructor.
    + apply inv_start.
    + cbn [length]. pose proof (fresh_le ge_from [] (g_edges d)). lia.
    + destruct H as [it [[es [Wk [E1 [E2 [E3 E4]]]]] [En [Min ->]]]]. unfold path_of. rewrite E1, E2.
      rewrite En in Wk.
      assert (Ie : incl es (g_edges d)). { clear -Wk. induction Wk; intros z []; subst; auto. }
      assert (Hf : has_node d from).
      { destruct Wk as [|x e p y He Hf Wk]; [contradiction|]. destruct (D e He). subst; auto. }
      destruct (read_nodes (from :: map ge_to es) U) as [ns [-> [En' In']]].
      { intros x [<-|Hx]; auto. apply in_map_iff in Hx as [e [<- He]]. apply (D e (Ie _ He)). }
      cbn [bind]. rewrite read_edges; auto. cbn [bind p_edges p_nodes p_distance p_weight].
      exists es. split; auto. split.
      { intros es' W'. specialize (Min _ (walk_trail _ _ _ _ W')). rewrite map_length in Min. lia. }
      auto.
    + destruct H as [-> N]. right. intros es Wk. exact (N _ (walk_trail _ _ _ _ Wk)).
Qed.

(** * Connected *)
Lemma other_end_hop dir types x e : In e (g_edges d) -> touches dir x e = true -> (types = [] \/ In (ge_type e) types) ->
  hop d dir types x (other_end x e).
Proof.
  intros He T Ty. exists e. split; auto. split; auto. unfold other_end, touches in *.
  destruct (String.eqb_spec dir "out") as [->|N1]; [|destruct (String.eqb_spec dir "in") as [->|N2]].
  - rewrite T. apply String.eqb_eq in T. left. repeat split; auto. discriminate.
  - apply String.eqb_eq in T. right. split; [discriminate|]. split; auto. destruct (String.eqb_spec (ge_from e) x); congruence.
  - destruct (String.eqb_spec (ge_from e) x) as [Ef|Ef]; cbn in T; [left; auto|].
    apply String.eqb_eq in T. right. auto.
Qed.
Lemma hop_other_end dir types x y : hop d dir types x y ->
  exists e, In e (g_edges d) /\ touches dir x e = true /\ (types = [] \/ In (ge_type e) types) /\ other_end x e = y.
Proof.
  intros [e [He [Ty H]]]. exists e. split; auto. unfold touches, other_end.
  destruct H as [[N [Hf Ht]]|[N [Ht Hf]]].
  - rewrite Hf, String.eqb_refl. split; [|auto]. destruct (String.eqb_spec dir "out"); auto.
    destruct (String.eqb_spec dir "in"); [contradiction|reflexivity].
  - split; [|split; auto].
    + destruct (String.eqb_spec dir "out"); [contradiction|]. destruct (String.eqb_spec dir "in").
      * apply String.eqb_eq; auto. * rewrite Ht, String.eqb_refl. apply orb_true_r.
    + destruct (String.eqb_spec (ge_from e) x); congruence.
Qed.
Lemma edges_hops es x dir : Permutation es (filter (touches dir x) (g_edges d)) ->
  forall y, hop d dir [] x y -> In y (map (other_end x) es).
Proof.
  intros P y H. apply hop_other_end in H as [e [He [T [_ E]]]]. apply in_map_iff. exists e. split; auto.
  apply (Permutation_in _ (Permutation_sym P)). apply filter_In. auto.
Qed.

Lemma connected_loop_ok depth fuel : forall queue seen,
  (forall z k, In (z, k) queue -> exists p, trail (hop d "both" []) from p z /\ k = Z.of_nat (length p)) ->
  (forall z k, In (z, k) queue -> (k <= depth)%Z) ->
  inv (hop d "both" []) from to (fun n => (Z.of_nat n <= depth)%Z) queue seen ->
  (length queue + fresh ge_from seen (g_edges d) + fresh ge_to seen (g_edges d) < fuel)%nat ->
  exists r, connected_loop ord fuel d to depth queue seen = Ok r /\
    (r = true <-> exists p, trail (hop d "both" []) from p to /\ (Z.of_nat (length p) <= depth)%Z).
Proof.
  induction fuel as [|fuel IH]; intros queue seen Q Qd I L; [lia|].
  cbn [connected_loop]. destruct queue as [|[x k] q].
  - exists false. split; auto. split; [discriminate|]. intros [p [T Lp]]. destruct (inv_empty _ _ _ _ _ _ I T Lp).
  - destruct (String.eqb_spec x to) as [->|E].
    + exists true. split; auto. split; auto. intros _. destruct (Q to k (or_introl eq_refl)) as [p [T ->]].
      exists p. split; auto. apply (Qd to). left; auto.
    + assert (Qq : forall z k, In (z, k) q -> exists p, trail (hop d "both" []) from p z /\ k = Z.of_nat (length p)) by (intros; apply Q; right; auto).
      assert (Qdq : forall z k, In (z, k) q -> (k <= depth)%Z) by (intros z k0 Hz; apply (Qd z); right; auto).
      cbn [length] in L. destruct (Z.leb_spec depth k) as [D|D].
      { apply IH; auto; [|lia]. eapply inv_deep; eauto. intros n Hn. cbn in Hn. lia. }
      destruct (in_ids seen x) eqn:S.
      * apply IH; auto; [|lia]. eapply inv_seen; eauto. apply in_ids_iff; auto.
      * apply in_ids_false in S.
        destruct (get_edges_ok x "both" eq_refl) as [es [-> P]].
        destruct (Q x k (or_introl eq_refl)) as [px [Tx Ek]].
        apply IH.
        -- intros z k' Hz. apply in_app_or in Hz as [Hz|Hz]; auto. apply in_map_iff in Hz as [y [Ey Hy]]. injection Ey as -> <-.
           apply filter_In in Hy as [Hy _]. apply in_map_iff in Hy as [e [<- He]].
           apply (Permutation_in _ P) in He. apply filter_In in He as [He T].
           exists (px ++ [other_end x e]). split; [eapply trail_snoc; eauto; apply other_end_hop; auto|].
           rewrite app_length. cbn. lia.
        -- intros z k' Hz. apply in_app_or in Hz as [Hz|Hz]; [exact (Qdq _ _ Hz)|]. apply in_map_iff in Hz as [y [Ey _]]. injection Ey as _ <-. lia.
        -- eapply inv_expand; eauto. intros y Hy N. apply filter_In. split; [eapply edges_hops; eauto|].
           apply negb_true_iff, in_ids_false. auto.
        -- rewrite app_length, map_length.
           pose proof (fresh_split ge_from seen x (g_edges d) S) as S1.
           pose proof (fresh_split ge_to seen x (g_edges d) S) as S2.
           pose proof (filter_le (fun y => negb (in_ids (x :: seen) y)) (map (other_end x) es)) as Le. rewrite map_length in Le.
           pose proof (Permutation_length P) as Pl.
           pose proof (filter_or_le (fun e => String.eqb (ge_from e) x) (fun e => String.eqb (ge_to e) x) (g_edges d)) as Lo.
           change (length (filter (touches "both" x) (g_edges d)) <= length (filter (fun e => String.eqb (ge_from e) x) (g_edges d)) + length (filter (fun e => String.eqb (ge_to e) x) (g_edges d)))%nat in Lo.
           lia.
Qed.
Lemma connected_ok depth :
  exists r, connected ord d from to depth = Ok r /\
    (r = true <-> exists n, hops d "both" [] n from to /\ (Z.of_nat n <= (if Z.leb depth 0 then 6 else depth))%Z).
Proof.
  unfold connected. destruct (String.eqb_spec from to) as [->|E].
  - exists true. split; auto. split; auto. intros _. exists 0%nat. split; [constructor|]. destruct (Z.leb_spec depth 0); lia.
  - match goal with |- context [connected_loop ord ?f d to ?dd ?q ?s] => destruct (connected_loop_ok dd f q s) as [r [H1 H2]] end.
    + intros z k [Ez|[]]. injection Ez as <- <-. exists []. split; [constructor|auto].
    + intros z k [Ez|[]]. injection Ez as <- <-. destruct (Z.leb_spec depth 0); lia.
    + apply inv_start.
    + cbn [length]. pose proof (fresh_le ge_from [] (g_edges d)). pose proof (fresh_le ge_to [] (g_edges d)). lia.
    + exists r. split; auto. rewrite H2. split.
      * intros [p [T L]]. exists (length p). split; auto. apply hops_trail. eauto.
      * intros [n [H L]]. apply hops_trail in H as [p [T <-]]. eauto.
Qed.
End Trav.
