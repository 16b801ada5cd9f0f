(** Theorems on the graph tools: finding chunks, expanding, reading, building a context. *)
From Coq Require Import String Ascii List NArith ZArith Bool Permutation Sorted Lia ZifyBool ZifyNat.
From Coq Require Import Floats.SpecFloat.
From Verif Require Import Base Floats64 TopK StoreModel StoreSpec HindProofs IntAddProofs RagSearchProofs ToolTextProofs MemSearchProofs RagModel RagSpec RagProofs RagProps GraphModel GraphSpec GraphProofs GraphProps ToolGraphModel ToolGraphSpec ToolGraphProofs ToolGraphProofs2 ToolGraphProps.
Import ListNotations.
Open Scope string_scope.
Open Scope list_scope.

(** *** Counting *)
Lemma counted_snoc {A} (p : A -> Prop) l x n : counted p l n -> (p x -> counted p (l ++ [x]) (n + 1)%Z) /\ (~ p x -> counted p (l ++ [x]) n).
Proof.
  induction 1 as [|y l n Py C [IH1 IH2]|y l n Py C [IH1 IH2]]; split; intros H; cbn [app].
  - apply (counted_yes p x [] 0); [exact H|constructor].
  - apply counted_no; [exact H|constructor].
  - apply counted_yes; auto.
  - apply counted_yes; auto.
  - apply counted_no; auto.
  - apply counted_no; auto.
Qed.
Lemma counted_same {A} (p : A -> Prop) l n : counted p l n -> forall m, counted p l m -> n = m.
Proof. induction 1; intros m H'; inversion H'; subst; try contradiction; auto. f_equal. auto. Qed.
Lemma counted_some {A} (p : A -> Prop) l n : counted p l n -> (0 < n)%Z -> exists x, In x l /\ p x.
Proof. induction 1; intros H'; [lia|eexists; split; [left; reflexivity|auto]|]. destruct IHcounted as (y & Hy & Py); [lia|]. exists y. split; [right|]; auto. Qed.

Lemma by_count_int i j a b : (0 <= a <= 2 ^ 53)%Z -> (0 <= b <= 2 ^ 53)%Z -> by_count (i, f64_of_Z a) (j, f64_of_Z b) = more_names (i, a) (j, b).
Proof.
  intros A B. unfold by_count, more_names. cbn [fst snd]. change (fgt (f64_of_Z a) (f64_of_Z b)) with (flt (f64_of_Z b) (f64_of_Z a)). unfold feq, flt, SFeqb, SFltb.
  rewrite !compare_int by lia. rewrite Z.compare_antisym. destruct (Z.compare_spec b a); cbn [CompOpp]; destruct (Z.ltb_spec b a), (Z.eqb_spec a b); try lia; reflexivity.
Qed.

Section Count.
Variables (trim slug : string -> string) (P : env -> Prop) (ord : string -> list gedge -> list gedge) (d : gdb) (k h : Z).
Hypothesis R : greachable P d.
Hypothesis W : weights_numbers d.
Hypothesis O : any_order ord.
Hypothesis Hk : (0 < k)%Z.
Hypothesis Hh : (0 < h)%Z.
Definition table (done : list string) (m : list (string * float)) : Prop :=
  NoDup (map fst m) /\ forall c, exists z, counted (linked trim slug d h c) done z /\ (0 <= z <= Z.of_nat (length done))%Z /\ assoc c m = (if (z =? 0)%Z then None else Some (f64_of_Z z)).
Lemma count_step done m name ns : table done m -> (Z.of_nat (length done) < 2 ^ 53)%Z -> at_most d h (k * 8) (resolve trim slug "" name) ->
  neighbors ord d (resolve trim slug "" name) (around h ["chunk"] (k * 8)) = Ok ns ->
  table (done ++ [name]) (fold_left (fun m n => add_one (n_id n) m) ns m).
Proof using R W O Hk Hh.
  intros [N T] L A E. destruct (bounded_neighbors P ord d (resolve trim slug "" name) h ["chunk"] (k * 8) R W O Hh) as (ns' & E' & Nn & I); [lia|exact A|]. rewrite E in E'. injection E' as <-.
  rewrite fold_map_ids. split; [apply add_ones_nodup; exact N|]. intros c. destruct (T c) as (z & C & Lz & As).
  assert (Nd : NoDup (map n_id ns)) by (eapply (nodup_ids P d R); [exact Nn|intros n Hn; apply I in Hn; tauto]).
  rewrite add_ones by exact Nd. rewrite app_length. cbn [length].
  assert (K : In c (map n_id ns) <-> linked trim slug d h c name).
  { rewrite in_map_iff. split.
    - intros (n & Ec & Hn). apply I in Hn as (Hn & [Ht|[Ht|[]]] & Hw); [discriminate|]. exists (resolve trim slug "" name), n. subst c. split; [apply resolve_iff; reflexivity|]. auto.
    - intros (x & n & Kx & Hn & En & Tn & Hw). apply resolve_iff in Kx. subst x. exists n. split; [exact En|]. apply I. rewrite En. split; [exact Hn|]. split; [right; left; symmetry; exact Tn|exact Hw]. }
  destruct (in_dec string_dec c (map n_id ns)) as [H|H].
  - exists (z + 1)%Z. split; [apply (counted_snoc _ _ name _ C); apply K; exact H|]. split; [lia|]. destruct (Z.eqb_spec (z + 1) 0); [lia|]. f_equal. rewrite As.
    destruct (Z.eqb_spec z 0) as [->|Nz]; [reflexivity|]. apply f64_add_int; lia.
  - exists z. split; [apply (counted_snoc _ _ name _ C); intros X; apply H, K, X|]. split; [lia|exact As].
Qed.
Lemma count_names_ok names : (Z.of_nat (length names) <= 2 ^ 53)%Z -> (forall name, In name names -> at_most d h (k * 8) (resolve trim slug "" name)) ->
  table names (count_names trim slug ord d k h names).
Proof using R W O Hk Hh.
  unfold count_names. intros L A.
  assert (G : forall rest done m, done ++ rest = names -> table done m ->
    table names (fold_left (fun m name => match neighbors ord d (resolve trim slug "" name) (around h ["chunk"] (k * 8)) with Ok ns => fold_left (fun m n => add_one (n_id n) m) ns m | _ => m end) rest m)).
  { induction rest as [|name rest IH]; intros done m E T; [rewrite app_nil_r in E; subst; exact T|]. cbn [fold_left].
    assert (An : at_most d h (k * 8) (resolve trim slug "" name)) by (apply A; rewrite <- E; apply in_or_app; right; left; reflexivity).
    destruct (bounded_neighbors P ord d (resolve trim slug "" name) h ["chunk"] (k * 8) R W O Hh) as (ns & En & _); [lia|exact An|].
    rewrite En. apply (IH (done ++ [name])); [rewrite <- app_assoc; exact E|]. apply count_step; auto.
    rewrite <- E, app_length in L. cbn [length] in L. lia. }
  apply (G names []); [reflexivity|]. split; [constructor|]. intros c. exists 0%Z. split; [constructor|]. split; [cbn; lia|reflexivity].
Qed.
Lemma assoc_in {B} m c (x : B) : NoDup (map fst m) -> (assoc c m = Some x <-> In (c, x) m).
Proof using Type.
  clear. induction m as [|[i y] m IH]; cbn [assoc map fst]; intros N; [split; [discriminate|intros []]|]. apply NoDup_cons_iff in N as [N1 N2]. destruct (String.eqb_spec c i) as [->|Ne].
  - split; [intros [= ->]; left; reflexivity|]. intros [E|H]; [congruence|]. destruct N1. apply (in_map fst) in H. exact H.
  - rewrite IH by exact N2. split; [intros H; right; exact H|]. intros [E|H]; [congruence|exact H].
Qed.
Lemma table_whole names m : (Z.of_nat (length names) <= 2 ^ 53)%Z -> table names m -> exists all, m = map (fun p => (fst p, f64_of_Z (snd p))) all /\ NoDup (map fst all) /\
  (forall p, In p all -> (0 <= snd p <= 2 ^ 53)%Z) /\ forall c z, In (c, z) all <-> counted (linked trim slug d h c) names z /\ (0 < z)%Z.
Proof using Type.
  intros L [N T].
  assert (G : forall l, (forall p, In p l -> In p m) -> exists all, l = map (fun p => (fst p, f64_of_Z (snd p))) all /\ forall p, In p all -> counted (linked trim slug d h (fst p)) names (snd p) /\ (0 < snd p <= 2 ^ 53)%Z).
  { induction l as [|[c x] l IH]; intros Hl; [exists []; split; [reflexivity|intros p []]|]. destruct IH as (all & -> & Hall); [intros p Hp; apply Hl; right; exact Hp|].
    destruct (T c) as (z & C & Lz & As). assert (Ac : assoc c m = Some x) by (apply assoc_in; [exact N|apply Hl; left; reflexivity]). rewrite Ac in As. destruct (Z.eqb_spec z 0); [discriminate|]. injection As as ->.
    exists ((c, z) :: all). split; [reflexivity|]. intros p [<-|Hp]; [cbn [fst snd]; split; [exact C|lia]|auto]. }
  destruct (G m) as (all & -> & Hall); [auto|]. exists all. split; [reflexivity|]. rewrite map_map in N. cbn [fst] in N. split; [exact N|].
  split; [intros p Hp; apply Hall in Hp; lia|]. intros c z. split; [intros H; apply Hall in H; cbn [fst snd] in H; split; [tauto|lia]|].
  intros [C Z0]. destruct (T c) as (z' & C' & Lz & As). pose proof (counted_same _ _ _ C _ C') as <-. destruct (Z.eqb_spec z 0); [lia|].
  apply assoc_in in As; [|rewrite map_map; exact N]. apply in_map_iff in As as ([c' z'] & E & H). cbn [fst snd] in E. injection E as -> E. apply Hall in H as X. destruct X as [X _]. cbn [fst snd] in X.
  rewrite (counted_same _ _ _ C _ X). exact H.
Qed.
End Count.

Lemma listing_impl read (good good' : string -> tchunk -> Prop) ids ts : listing read good ids ts -> (forall id t, In id ids -> good id t -> good' id t) -> listing read good' ids ts.
Proof.
  induction 1; intros H'; [constructor|apply listing_lost; auto; apply IHlisting; intros; apply H'; auto; right; auto|].
  apply listing_more; [auto|apply H'; [left; reflexivity|auto]|apply IHlisting; intros; apply H'; auto; right; auto].
Qed.
(** SearchChunksByEntities: for each chunk, how many of the names have their entity linked
    to it; the best TopK chunks by that number (and id), those that are stored, each with
    that number as score and the entities next to it. *)
Theorem chunks_by_entities_exact : forall trim slug P ord read ssort mord srt d names topk hops,
  greachable P d -> weights_numbers d -> any_order ord -> sort_ok String.ltb ssort -> sort_ok by_count srt -> (forall l, Permutation l (mord l)) ->
  names <> [] -> (Z.of_nat (length names) <= 2 ^ 53)%Z ->
  let k := if (topk <=? 0)%Z then 10%Z else topk in
  let h := if (hops <=? 0)%Z then 1%Z else hops in
  (forall name x, In name names -> known_as trim slug "" name x -> at_most d h (8 * k) x) ->
  (forall n, In n (g_nodes d) -> n_type n = "chunk" -> at_most d 1 32 (n_id n)) ->
  exists ts all best, chunks_by_entities trim slug ord read ssort mord srt d names topk hops = Ok ts /\
    NoDup (map fst all) /\ (forall c z, In (c, z) all <-> counted (linked trim slug d h c) names z /\ (0 < z)%Z) /\
    is_topk more_names (Z.to_nat k) all best /\
    listing read (fun c t => (exists z, In (c, z) best /\ tc_score t = f64_of_Z z) /\ next_entities d c (tc_ents t)) (map fst best) ts.
Proof.
  intros trim slug P ord read ssort mord srt d names topk hops R W O Ss Sc M Ne L k h A1 A2. unfold chunks_by_entities. destruct names as [|n0 ns0] eqn:En; [congruence|]. rewrite <- En in *. clear En n0 ns0 Ne.
  fold k h. cbv zeta. assert (Hk : (0 < k)%Z) by (unfold k; destruct (Z.leb_spec topk 0); lia). assert (Hh : (0 < h)%Z) by (unfold h; destruct (Z.leb_spec hops 0); lia).
  assert (T : table trim slug d h names (count_names trim slug ord d k h names)).
  { apply (count_names_ok trim slug P); auto. intros name Hn. rewrite Z.mul_comm. apply (A1 name); [exact Hn|apply resolve_iff; reflexivity]. }
  set (m := count_names trim slug ord d k h names) in *. destruct (table_whole trim slug d h names m L T) as (all & Em & Nall & Ball & Iall).
  set (g := fun p : string * Z => (fst p, f64_of_Z (snd p))) in *.
  assert (Wk : weak_order_on by_count (mord m)).
  { change by_count with ToolTextModel.by_thit. apply by_thit_weak. intros x Hx. apply (Permutation_in _ (Permutation_sym (M m))) in Hx. rewrite Em in Hx. apply in_map_iff in Hx as (p & <- & Hp). unfold g. cbn [snd].
    apply nonneg_not_nan, nonneg_of_Z. apply Ball in Hp. lia. }
  pose proof (topk_of_sort by_count srt (Z.to_nat k) (mord m) Sc Wk) as Tk. apply (is_topk_perm _ _ m) in Tk; [|apply M].
  assert (X : exists best, firstn (Z.to_nat k) (srt (mord m)) = map g best /\ is_topk more_names (Z.to_nat k) all best).
  { rewrite Em in Tk. clear -Tk Ball Nall Em. destruct Tk as (rest & Pm & Ln & So & Be). rewrite Em. set (out := firstn (Z.to_nat k) (srt (mord (map g all)))) in *.
    clearbody out. assert (Q : exists l, out ++ rest = map g l /\ Permutation all l) by (apply Permutation_map_inv; apply Permutation_sym; exact Pm).
    destruct Q as (l & El & Pl). symmetry in El. apply map_eq_app in El as (best & rest' & -> & <- & <-).
    exists best. split; [reflexivity|]. exists rest'. split; [exact Pl|]. split; [rewrite map_length in Ln; rewrite map_length in Ln; exact Ln|].
    assert (B : forall x, In x (best ++ rest') -> (0 <= snd x <= 2 ^ 53)%Z) by (intros x Hx; apply Ball; eapply Permutation_in; [apply Permutation_sym; exact Pl|exact Hx]).
    assert (Bg : forall x y, In x (best ++ rest') -> In y (best ++ rest') -> by_count (g x) (g y) = more_names x y) by (intros [i a] [j b] Hx Hy; apply by_count_int; [exact (B _ Hx)|exact (B _ Hy)]).
    split.
    - assert (Bb : forall x y, In x best -> In y best -> by_count (g x) (g y) = more_names x y) by (intros; apply Bg; apply in_or_app; auto). clear -So Bb. induction best as [|x best IH]; [constructor|]. cbn [map] in So.
      apply StronglySorted_inv in So as [So F]. constructor; [apply IH; [exact So|intros; apply Bb; right; auto]|]. rewrite Forall_forall in *. intros y Hy. rewrite <- Bb; [apply F; apply in_map; exact Hy|right; exact Hy|left; reflexivity].
    - intros x y Hx Hy. rewrite <- Bg; [apply Be; apply in_map; auto|apply in_or_app; auto|apply in_or_app; auto]. }
  destruct X as (best & Eb & Tb). rewrite Eb, map_map. cbn [fst g].
  assert (Ib : forall c, In c (map (fun p => fst p) best) -> exists z, In (c, z) best /\ In (c, z) all) by (intros c Hc; apply in_map_iff in Hc as ([c' z] & Ec & H); cbn in Ec; subst; exists z; split; [exact H|apply (is_topk_in _ _ _ _ _ Tb H)]).
  destruct (load_chunks_ok P ord ssort d R W O Ss read (fun id => match assoc id m with Some x => x | None => f_zero end) true (map (fun p => fst p) best)) as (ts & E & Ls).
  { intros _ c Hc _. destruct (Ib c Hc) as (z & _ & Hz). apply Iall in Hz as [C Z0]. destruct (counted_some _ _ _ C Z0) as (name & _ & (x & n & _ & Hn & <- & Tn & _)). apply A2; auto. }
  exists ts, all, best. split; [exact E|]. split; [exact Nall|]. split; [exact Iall|]. split; [exact Tb|].
  assert (Sco : forall c z, In (c, z) all -> assoc c m = Some (f64_of_Z z)).
  { intros c z H. apply assoc_in; [rewrite Em, map_map; exact Nall|]. rewrite Em. apply (in_map g) in H. exact H. }
  assert (Inb : forall c, In c (map (fun p => fst p) best) -> exists z, In (c, z) best /\ (match assoc c m with Some x => x | None => f_zero end) = f64_of_Z z).
  { intros c Hc. destruct (Ib c Hc) as (z & H1 & H2). exists z. split; [exact H1|]. rewrite (Sco c z H2). reflexivity. }
  eapply listing_impl; [exact Ls|]. intros c t Hc [Es En]. destruct (Inb c Hc) as (z & H1 & H2). split; [exists z; split; [exact H1|rewrite Es; exact H2]|exact En].
Qed.
Print Assumptions chunks_by_entities_exact.
Definition by_count_sort := ex_sort by_count.
Definition str_sort := ex_sort String.ltb.
Definition tag_node (t id content : string) : gnode := {| n_id := id; n_vec := [1%N]; n_content := content; n_type := t; n_props := None |}.
Definition link (id a b : string) : gedge := gedge_w id a b "mentions" f_zero.
Definition tg_ops : list gop :=
  [GUpsertNodes [Some (tag_node "chunk" "c1" ""); Some (tag_node "chunk" "c2" ""); Some (tag_node "chunk" "c3" ""); Some (tag_node "entity" "entity:ada" "Ada"); Some (tag_node "entity" "entity:bob" "Bob"); Some (tag_node "place" "entity:rome" "Rome")];
   GUpsertEdges [Some (link "1" "c1" "entity:bob"); Some (link "2" "c2" "entity:ada"); Some (link "3" "c2" "entity:bob"); Some (link "4" "c3" "entity:ada"); Some (link "5" "c2" "entity:rome")]].
Definition tg2 : gdb := grun all_fine tg_ops.
Definition read0 (id : string) : option (string * string) := if String.eqb id "c1" then None else Some ("d", "text of " ++ id)%string.
Lemma small_at_most d h m x : no_dangling d -> (Z.of_nat (length (g_nodes d)) <= m)%Z -> at_most d h m x.
Proof.
  intros D L l N H. assert (I : incl l (map n_id (g_nodes d))).
  { intros y Hy. destruct (H y Hy) as (_ & n & Hn & Ln). destruct n as [|n]; [lia|]. assert (has_node d y) as (w & Hw & <-); [|apply in_map; exact Hw].
    clear -D Hn. remember (S n) as k eqn:E. revert n E. induction Hn as [x|k x y z Hop Hs IH]; intros n E; [discriminate|]. destruct k as [|k]; [|apply (IH k); reflexivity].
    inversion Hs; subst. destruct Hop as (e & He & _ & Hd). destruct (D e He) as [D1 D2]. destruct Hd as [[_ [_ <-]]|[_ [_ <-]]]; auto. }
  apply (NoDup_incl_length N) in I. rewrite map_length in I. lia.
Qed.
Lemma tg2_fine : greachable fk_env tg2 /\ weights_numbers tg2 /\ no_dangling tg2 /\ (Z.of_nat (length (g_nodes tg2)) <= 8)%Z.
Proof.
  assert (R : greachable fk_env tg2) by (apply grun_reachable; reflexivity). split; [exact R|]. split; [|split; [apply reach_fine; exact R|vm_compute; discriminate]].
  intros e He. vm_compute in He. repeat (destruct He as [<-|He]; [discriminate|]). destruct He.
Qed.
Example chunks_by_entities_ex :
  greachable fk_env tg2 /\ weights_numbers tg2 /\ any_order as_stored /\ sort_ok String.ltb str_sort /\ sort_ok by_count by_count_sort /\
  (forall name x, In name ["ada"; "bob"; "zoe"] -> known_as same same "" name x -> at_most tg2 1 (8 * 3) x) /\
  (forall n, In n (g_nodes tg2) -> n_type n = "chunk" -> at_most tg2 1 32 (n_id n)) /\
  exists ts, chunks_by_entities same same as_stored read0 str_sort (fun l => l) by_count_sort tg2 ["ada"; "bob"; "zoe"] 3 0 = Ok ts /\
    ts = [{| tc_id := "c2"; tc_doc := "d"; tc_content := "text of c2"; tc_score := f64_of_Z 2; tc_ents := ["Ada"; "Bob"] |};
          {| tc_id := "c3"; tc_doc := "d"; tc_content := "text of c3"; tc_score := f64_of_Z 1; tc_ents := ["Ada"] |}].
Proof.
  destruct tg2_fine as (R & W & D & L). split; [exact R|]. split; [exact W|]. split; [apply as_stored_order|]. split; [apply ex_sort_ok|]. split; [apply ex_sort_ok|].
  split; [intros; apply small_at_most; [exact D|lia]|]. split; [intros; apply small_at_most; [exact D|lia]|]. eexists. split; [vm_compute; reflexivity|reflexivity].
Qed.
(** Every chunk linked to the entity is found when there is room for it — refuted: the
    traversal stops at 8 TopK nodes of any type. *)
Definition crowd : list string := ["a"; "b"; "c"; "d"; "e"; "f"; "g"; "h"].
Definition tg3 : gdb := grun all_fine
  [GUpsertNodes (map (fun i => Some (tag_node "place" i i)) crowd ++ [Some (tag_node "entity" "entity:ada" "Ada"); Some (tag_node "chunk" "c2" "")]);
   GUpsertEdges (map (fun i => Some (link i "entity:ada" i)) crowd ++ [Some (link "z" "c2" "entity:ada")])].
Theorem entity_chunks_limit_refuted : exists d, greachable fk_env d /\ weights_numbers d /\ linked same same d 1 "c2" "ada" /\ read0 "c2" <> None /\
  chunks_by_entities same same as_stored read0 str_sort (fun l => l) by_count_sort d ["ada"] 1 1 = Ok [].
Proof.
  exists tg3. split; [apply grun_reachable; reflexivity|]. split; [intros e He; vm_compute in He; repeat (destruct He as [<-|He]; [discriminate|]); destruct He|]. split; [|split; [discriminate|vm_compute; reflexivity]].
  exists "entity:ada", (tag_node "chunk" "c2" ""). split; [apply resolve_iff; reflexivity|]. split; [vm_compute; tauto|]. split; [reflexivity|]. split; [reflexivity|]. split; [discriminate|].
  exists 1. split; [|lia]. apply (hops_S _ _ _ 0 _ "c2"); [|constructor]. exists (default_weight (link "z" "c2" "entity:ada")). split; [vm_compute; tauto|]. split; [left; reflexivity|]. right. split; [discriminate|split; reflexivity].
Qed.
Print Assumptions entity_chunks_limit_refuted.

(** *** ExpandGraph *)
Lemma add_new l : forall s, (NoDup s -> NoDup (fold_left (fun s x => if in_ids s x then s else s ++ [x]) l s)) /\
  forall y, In y (fold_left (fun s x => if in_ids s x then s else s ++ [x]) l s) <-> In y s \/ In y l.
Proof.
  induction l as [|x l IH]; intros s; [split; [auto|cbn; tauto]|]. cbn [fold_left]. destruct (IH (if in_ids s x then s else s ++ [x])) as [I1 I2].
  destruct (in_ids s x) eqn:E.
  - apply in_ids_iff in E. split; [exact I1|]. intros y. rewrite I2. cbn [In]. split; [tauto|]. intros [H|[<-|H]]; tauto.
  - apply in_ids_false in E. split.
    + intros N. apply I1. apply (Permutation_NoDup (Permutation_cons_append s x)). constructor; [exact E|exact N].
    + intros y. rewrite I2, in_app_iff. cbn [In]. tauto.
Qed.
(** ExpandGraph without a limit: the stored nodes among those asked for and the nodes (of
    the types asked for) within the hops of them, with every edge between them. *)
Theorem expand_graph_exact : forall P ord ssort d ids hops etypes ntypes limit,
  greachable P d -> weights_numbers d -> any_order ord -> sort_ok String.ltb ssort -> (limit <= 0)%Z ->
  exists ns es, expand_graph ord ssort d ids hops etypes ntypes limit = Ok (ns, es) /\ NoDup ns /\ NoDup es /\
    let h := if (hops <=? 0)%Z then 1%Z else hops in
    (forall n, In n ns <-> In n (g_nodes d) /\ reached d ids h etypes ntypes (n_id n)) /\
    (forall e, In e es <-> In e (g_edges d) /\ reached d ids h etypes ntypes (ge_from e) /\ reached d ids h etypes ntypes (ge_to e)).
Proof.
  intros P ord ssort d ids hops etypes ntypes limit R W O Ss Li. cbv zeta. set (h := if (hops <=? 0)%Z then 1%Z else hops).
  set (o := {| tr_depth := h; tr_edge_types := etypes; tr_node_types := ntypes; tr_dir := "both"; tr_limit := limit |}).
  assert (G : forall l seen, NoDup seen -> exists s, expand_set ord d o l seen = Ok s /\ NoDup s /\ forall y, In y s <-> In y seen \/ reached d l h etypes ntypes y).
  { induction l as [|x l IH]; intros seen N.
    - exists seen. split; [reflexivity|]. split; [exact N|]. intros y. split; [auto|]. intros [H|[[_ []]|(x & n & k & [] & _)]]. exact H.
    - cbn [expand_set]. destruct (String.eqb_spec x "") as [->|Nx].
      + destruct (IH seen N) as (s & E & Ns & I). exists s. split; [exact E|]. split; [exact Ns|]. intros y. rewrite I. unfold reached. split; (intros [H|H]; [left; exact H|right]).
        * destruct H as [[H1 H2]|(x & n & k & H1 & H2)]; [left; split; [exact H1|right; exact H2]|right; exists x, n, k; split; [right; exact H1|exact H2]].
        * destruct H as [[H1 [H2|H2]]|(x & n & k & [H1|H1] & H2)]; [congruence|left; auto|destruct H2; congruence|right; exists x, n, k; split; [exact H1|exact H2]].
      + destruct (neighbors_exact P ord d x o R W O) as (ns & En & Nn & In' & _); [right; right; left; reflexivity|exact Li|]. cbn [o tr_dir tr_edge_types tr_node_types tr_depth] in In'.
        assert (Hh : (if (h <=? 0)%Z then 1%Z else h) = h) by (unfold h; destruct (Z.leb_spec hops 0); [reflexivity|]; destruct (Z.leb_spec hops 0); lia). rewrite Hh in In'.
        rewrite En. cbn [bind]. destruct (add_new (x :: map n_id ns) seen) as [A1 A2].
        destruct (IH _ (A1 N)) as (s & E & Ns & I). exists s. split; [exact E|]. split; [exact Ns|]. intros y. rewrite I, A2. cbn [In]. rewrite in_map_iff. unfold reached. split.
        * intros [[H|[<-|(n & <- & Hn)]]|[[H1 H2]|(z & n & k & H1 & H2)]].
          -- left. exact H.
          -- right. left. split; [exact Nx|left; reflexivity].
          -- right. right. apply In' in Hn as (Hn & Ht & Ne & k & Hk & Lk). exists x, n, k. split; [left; reflexivity|]. tauto.
          -- right. left. split; [exact H1|right; exact H2].
          -- right. right. exists z, n, k. split; [right; exact H1|exact H2].
        * intros [H|[[H1 [H2|H2]]|(z & n & k & [H1|H1] & H2)]].
          -- left. left. exact H.
          -- left. right. left. exact H2.
          -- right. left. auto.
          -- subst z. left. right. right. destruct H2 as (_ & Hn & En' & Ht & Ne & Hk & Lk). exists n. split; [exact En'|]. apply In'. rewrite En'. split; [exact Hn|]. split; [exact Ht|]. split; [exact Ne|]. exists k. auto.
          -- right. right. exists z, n, k. split; [exact H1|exact H2]. }
  unfold expand_graph. destruct ids as [|x ids'] eqn:Ei.
  { exists [], []. split; [reflexivity|]. split; [constructor|]. split; [constructor|]. assert (No : forall y, ~ reached d [] h etypes ntypes y) by (intros y [[_ []]|(x & n & k & [] & _)]).
    split; intros n; (split; [intros []|]); [intros [_ H]|intros (_ & H & _)]; destruct (No _ H). }
  rewrite <- Ei. clear Ei x ids'. fold h. fold o. destruct (G ids []) as (s & E & Ns & I); [constructor|]. rewrite E. cbn [bind].
  destruct (ssort_alpha ssort s Ss) as [Q _]. destruct (subgraph_exact P ord d (ssort s) R W O) as (S1 & S2 & S3). destruct (S3 (Permutation_NoDup Q Ns)) as [S4 S5].
  destruct (subgraph ord d (ssort s)) as [ns es]. cbn [fst snd] in *. exists ns, es. split; [reflexivity|]. split; [exact S4|]. split; [exact S5|].
  assert (K : forall y, In y (ssort s) <-> reached d ids h etypes ntypes y).
  { intros y. assert (Iy : In y s <-> reached d ids h etypes ntypes y) by (rewrite I; cbn [In]; tauto). rewrite <- Iy. split; apply Permutation_in; [apply Permutation_sym|]; exact Q. }
  split; [intros n; rewrite S1, K; reflexivity|intros e; rewrite S2, !K; reflexivity].
Qed.
Print Assumptions expand_graph_exact.
Example expand_graph_ex : exists ns es, expand_graph as_stored str_sort tg2 ["c1"; ""; "nope"] 2 [] ["chunk"] 0 = Ok (ns, es) /\ map n_id ns = ["c1"; "c2"] /\ es = [] /\
  exists ns es, expand_graph as_stored str_sort tg2 ["c1"] 1 [] [] 0 = Ok (ns, es) /\ map n_id ns = ["c1"; "entity:bob"] /\ map ge_id es = ["1"].
Proof. do 2 eexists. split; [vm_compute; reflexivity|]. split; [reflexivity|]. split; [reflexivity|]. do 2 eexists. split; [vm_compute; reflexivity|]. split; reflexivity. Qed.

(** *** GetChunks and BuildContext *)
(** GetChunks: the stored chunks among those asked for, in the order asked, with the
    entities next to each unless the graph was not wanted. *)
Theorem get_chunks_exact : forall P ord read ssort d ids mode nograph,
  greachable P d -> weights_numbers d -> any_order ord -> sort_ok String.ltb ssort ->
  (forall c, In c ids -> read c <> None -> at_most d 1 32 c) ->
  exists ts, get_chunks ord read ssort d ids mode nograph = Ok ts /\
    listing read (fun c t => tc_score t = f_zero /\ ((nograph = true \/ mode = MLexical) -> tc_ents t = []) /\
                             (nograph = false -> mode <> MLexical -> next_entities d c (tc_ents t))) ids ts.
Proof.
  intros P ord read ssort d ids mode nograph R W O Ss A. unfold get_chunks. destruct (load_chunks_ok P ord ssort d R W O Ss read (fun _ => f_zero) (load_ents mode nograph) ids) as (ts & E & L); [intros _; exact A|].
  exists ts. split; [exact E|]. eapply listing_impl; [exact L|]. intros c t _ [H1 H2]. split; [exact H1|]. unfold load_ents in H2. destruct nograph; cbn [negb andb] in H2.
  - split; [intros _; exact H2|discriminate].
  - destruct mode; cbn [andb] in H2; (split; [intros [X|X]; try discriminate; try exact H2|intros _ X; try exact H2; try congruence]).
Qed.
Print Assumptions get_chunks_exact.
Example get_chunks_ex : (forall c, In c ["c3"; "c1"; "c2"] -> read0 c <> None -> at_most tg2 1 32 c) /\
  exists ts, get_chunks as_stored read0 str_sort tg2 ["c3"; "c1"; "c2"] MAuto false = Ok ts /\ map tc_id ts = ["c3"; "c2"] /\ map tc_ents ts = [["Ada"]; ["Ada"; "Bob"]].
Proof.
  destruct tg2_fine as (R & W & D & L). split; [intros; apply small_at_most; [exact D|lia]|]. eexists. split; [vm_compute; reflexivity|]. split; reflexivity.
Qed.

Definition context_limits (max_chunks max_chars per_doc : Z) : qopts :=
  {| q_topk := 0; q_hops := 0; q_related := 0; q_chunks := max_chunks; q_chars := max_chars; q_perdoc := per_doc; q_rerank := false; q_lambda := f_zero; q_nograph := false; q_mode := MAuto |}.
Lemma ranked_ok cs : length (ranked cs) = length cs /\ forall i t, nth_error cs i = Some t -> exists c, nth_error (ranked cs) i = Some c /\ as_candidate (length cs) i t c.
Proof.
  assert (G : forall l j, length (number j l) = length l /\ forall i t, nth_error l i = Some t -> nth_error (@number tchunk j l) i = Some (j + i, t)).
  { induction l as [|a l IH]; intros j; [split; [reflexivity|intros [|i] t H; discriminate]|]. destruct (IH (S j)) as [I1 I2]. split; [cbn; f_equal; exact I1|].
    intros [|i] t H; cbn in *; [injection H as ->; f_equal; f_equal; lia|]. rewrite (I2 i t H). f_equal. f_equal. lia. }
  destruct (G cs 0) as [G1 G2]. unfold ranked. split; [rewrite map_length; exact G1|].
  intros i t H. assert ((i < length cs)%nat) by (apply nth_error_Some; congruence). rewrite nth_error_map, (G2 i t H). cbn [option_map fst snd]. eexists. split; [reflexivity|]. unfold as_candidate. cbn [c_id c_doc c_content c_ents c_score c_base c_rerank].
  split; [reflexivity|]. split; [reflexivity|]. split; [reflexivity|]. split; [reflexivity|]. split; [f_equal; lia|]. split; reflexivity.
Qed.
(** BuildContext: the chunks as GetChunks reads them, in that order, packed under the
    limits asked for, one line each. *)
Theorem tool_context_exact : forall ord read ssort d ids max_chunks max_chars per_doc mode nograph ts,
  get_chunks ord read ssort d ids mode nograph = Ok ts ->
  exists cs out, build_tool_context ord read ssort d ids max_chunks max_chars per_doc mode nograph = Ok (out, lines_of (map chunk_line out)) /\
    length cs = length ts /\ (forall i t, nth_error ts i = Some t -> exists c, nth_error cs i = Some c /\ as_candidate (length ts) i t c) /\
    packed (context_limits max_chunks max_chars per_doc) cs out /\ (ts <> [] -> out <> []) /\
    (Z.of_nat (length out) <= (if max_chunks <=? 0 then 8 else max_chunks))%Z /\
    (forall doc, doc <> EmptyString -> Z.of_nat (of_document doc out) <= (if per_doc <=? 0 then 2 else per_doc))%Z /\
    ((length out <= 1)%nat \/ (Z.of_nat (String.length (lines_of (map chunk_line out))) <= (if max_chars <=? 0 then 2400 else max_chars))%Z).
Proof.
  intros ord read ssort d ids mc mx pd mode ng ts E. unfold build_tool_context. rewrite E. cbn [bind]. change {| q_topk := 0; q_hops := 0; q_related := 0; q_chunks := mc; q_chars := mx; q_perdoc := pd; q_rerank := false; q_lambda := f_zero; q_nograph := false; q_mode := MAuto |} with (context_limits mc mx pd).
  destruct (packed_context_exact (context_limits mc mx pd) (ranked ts)) as (X1 & X2 & X3). destruct (packed_context_budgets (context_limits mc mx pd) (ranked ts)) as (_ & Y2 & Y3 & Y4). destruct (ranked_ok ts) as [R1 R2].
  exists (ranked ts), (pack (query_defaults (context_limits mc mx pd)) (ranked ts)). rewrite X3 in Y4 |- *. split; [reflexivity|]. split; [exact R1|]. split; [exact R2|]. split; [exact X1|].
  split; [intros H; apply X2; intros Z; apply H; apply length_zero_iff_nil; rewrite <- R1, Z; reflexivity|]. split; [exact Y2|]. split; [exact Y3|exact Y4].
Qed.
Print Assumptions tool_context_exact.
Example tool_context_ex : exists ts, get_chunks as_stored read0 str_sort tg2 ["c3"; "c1"; "c2"] MLexical false = Ok ts /\
  exists out, build_tool_context as_stored read0 str_sort tg2 ["c3"; "c1"; "c2"] 0 0 0 MLexical false = Ok (out, ("[d/c3] text of c3" ++ String (ascii_of_nat 10) "[d/c2] text of c2")%string) /\ map c_id out = ["c3"; "c2"].
Proof. eexists. split; [vm_compute; reflexivity|]. eexists. split; [vm_compute; reflexivity|reflexivity]. Qed.
