(* RegProofs.v: lemmas about the constituent part of host caps. *)
From Coq Require Import Permutation.
From Verif Require Import Base PyStr ReqModel ReqProofs CheckProofs LineProofs ConstPropModel ConstModel ConstSpec ConstProofs RegModel RegSpec.
Open Scope nat_scope.
Open Scope list_scope.

(* ---- texts ---- *)
Lemma find_sub_some w s a b : find_sub w s = Some (a, b) -> s = a ++ w ++ b.
Proof.
  revert a b. induction s as [|c s IH]; intros a b.
  - cbn. destruct (after_prefix w []) eqn:E; [|discriminate]. intros [= <- <-]. now apply after_prefix_some in E.
  - cbn [find_sub]. destruct (after_prefix w (c :: s)) eqn:E.
    + intros [= <- <-]. now apply after_prefix_some in E.
    + destruct (find_sub w s) as [[a' b']|]; [|discriminate]. intros [= <- <-]. cbn. f_equal. now apply IH.
Qed.
Lemma find_sub_none w s : find_sub w s = None -> ~ has w s.
Proof.
  induction s as [|c s IH].
  - cbn. destruct (after_prefix w []) eqn:E; [discriminate|]. intros _ (a & b & H).
    destruct a; [|discriminate]. cbn in H. assert (X : after_prefix w [] = Some b) by now apply after_prefix_some. congruence.
  - cbn [find_sub]. destruct (after_prefix w (c :: s)) eqn:E; [discriminate|]. destruct (find_sub w s) as [[a' b']|] eqn:F; [discriminate|].
    intros _ (a & b & H). destruct a as [|x a].
    + cbn in H. assert (X : after_prefix w (c :: s) = Some b) by now apply after_prefix_some. congruence.
    + cbn in H. injection H as <- H. apply (IH eq_refl). now exists a, b.
Qed.
Lemma within_has w s : within w s = true <-> has w s.
Proof.
  unfold within. destruct (find_sub w s) as [[a b]|] eqn:E; split; intros H; try discriminate; auto.
  - exists a, b. now apply find_sub_some.
  - now apply find_sub_none in E.
Qed.
Lemma within_not w s : within w s = false <-> ~ has w s.
Proof. rewrite <- within_has. destruct (within w s); split; congruence. Qed.
Lemma has_longer w w' s : has (w ++ w') s -> has w s.
Proof. intros (a & b & ->). exists a, (w' ++ b). now rewrite <- !app_assoc. Qed.
Lemma second_tendency x n : tendency x n -> second (L "tendency_of_") n = Ok x.
Proof.
  intros [-> H]. unfold second.
  assert (F : find_sub (L "tendency_of_") (L "tendency_of_" ++ x) = Some ([], x)).
  { assert (A : after_prefix (L "tendency_of_") (L "tendency_of_" ++ x) = Some x) by now apply after_prefix_some.
    set (s := L "tendency_of_" ++ x) in *. destruct s as [|c s]; cbn [find_sub]; now rewrite A. }
  rewrite F. destruct (find_sub (L "tendency_of_") x) as [[a b]|] eqn:G; auto. exfalso. apply H.
  apply (has_longer (L "tendency_of") (L "_")). exists a, b. now apply find_sub_some.
Qed.
Lemma tendency_within x n : tendency x n -> within (L "tendency_of") n = true.
Proof. intros [-> H]. apply within_has. exists [], (L "_" ++ x). reflexivity. Qed.
Lemma state_within n : state n -> within (L "tendency_of") n = false.
Proof. apply within_not. Qed.
Lemma tendency_fun x y n : tendency x n -> tendency y n -> x = y.
Proof. intros [H _] [G _]. rewrite H in G. now apply app_inv_head in G. Qed.
Lemma state_no_tendency x n : state n -> ~ tendency x n.
Proof. intros H G. apply tendency_within in G. apply state_within in H. congruence. Qed.
Lemma tendency_state x n : tendency x n -> state x.
Proof. now intros [_ H]. Qed.

(* ---- dimensions ---- *)
Lemma last_snoc {A} (l : list A) x d : List.last (l ++ [x]) d = x.
Proof. induction l as [|y l IH]; auto. cbn. destruct (l ++ [x]) eqn:E; [now destruct l|]. exact IH. Qed.
Lemma last_app {A} (l m : list A) d : m <> [] -> List.last (l ++ m) d = List.last m d.
Proof. intros N. destruct (exists_last N) as (m' & x & ->). rewrite app_assoc, !last_snoc. reflexivity. Qed.
Lemma upper_bound_last (n d : str) : ~ In ":"%char n -> (upper_bound n d <-> last_part d = n).
Proof.
  intros N. unfold upper_bound, last_part. split.
  - intros [_ [->|(lo & ->)]]; [now rewrite split_none|]. change (L ":" ++ n) with (":"%char :: n).
    rewrite split_cat, (split_none _ n N). apply last_snoc.
  - intros <-. split; auto. pose proof (split_on_nonempty ":" d) as NE.
    destruct (exists_last NE) as (m & x & E). rewrite E, last_snoc.
    rewrite <- (join_split ":" d), E. destruct m as [|y m]; [now left|]. right.
    exists (join [":"%char] (y :: m)). clear. revert y. induction m as [|z m IH]; intros y; [reflexivity|].
    change ((y :: z :: m) ++ [x]) with (y :: z :: (m ++ [x])).
    change (join [":"%char] (y :: z :: (m ++ [x]))) with (y ++ [":"%char] ++ join [":"%char] ((z :: m) ++ [x])).
    rewrite IH. change (join [":"%char] (y :: z :: m)) with (y ++ [":"%char] ++ join [":"%char] (z :: m)). now rewrite <- !app_assoc.
Qed.
Lemma clone_name_no (d : str) : ~ In ":"%char d -> ~ In ":"%char (clone_name d).
Proof.
  intros H. unfold clone_name. destruct (str_eqb d _); [|destruct (str_eqb d _); [|destruct (str_eqb d _); auto]];
  cbn; intuition discriminate.
Qed.
Lemma last_map {A B} (f : A -> B) l d e : l <> [] -> List.last (map f l) e = f (List.last l d).
Proof. intros N. destruct (exists_last N) as (m & x & ->). rewrite map_app. cbn. now rewrite !last_snoc. Qed.
Lemma clone_dim_last d : last_part (clone_dim d) = clone_name (last_part d).
Proof.
  unfold last_part, clone_dim. change (L ":") with [":"%char]. rewrite split_join.
  - apply last_map, split_on_nonempty.
  - intros E. apply map_eq_nil in E. now apply split_on_nonempty in E.
  - intros p H. apply in_map_iff in H as (q & <- & H). apply clone_name_no. now apply split_on_no_sep in H.
Qed.
Lemma clone_name_h d : clone_name d = L "horizontal_dimension" <->
  In d [L "horizontal_dimension"; L "horizontal_loop_extent"; L "horizontal_loop_end"].
Proof.
  unfold clone_name. destruct (str_eqb d (L "horizontal_loop_extent")) eqn:E1; [apply str_eqb_eq in E1 as ->; cbn; intuition|].
  destruct (str_eqb d (L "horizontal_loop_end")) eqn:E2; [apply str_eqb_eq in E2 as ->; cbn; intuition|].
  apply str_eqb_neq in E1, E2.
  destruct (str_eqb d (L "horizontal_loop_begin")) eqn:E3; [apply str_eqb_eq in E3 as ->; split; [discriminate|cbn; intuition discriminate]|].
  cbn [In]. intuition congruence.
Qed.
Lemma clone_name_v d : clone_name d = L "vertical_layer_dimension" <-> d = L "vertical_layer_dimension".
Proof.
  unfold clone_name. destruct (str_eqb d (L "horizontal_loop_extent")) eqn:E1; [apply str_eqb_eq in E1 as ->; split; discriminate|].
  destruct (str_eqb d (L "horizontal_loop_end")) eqn:E2; [apply str_eqb_eq in E2 as ->; split; discriminate|].
  destruct (str_eqb d (L "horizontal_loop_begin")) eqn:E3; [apply str_eqb_eq in E3 as ->; split; discriminate|]. tauto.
Qed.
(* the test of the dimensions *)
Definition dims_ok (v : cvar) : Prop :=
  exists h l, cv_dims v = [h; l] /\ last_part h = L "horizontal_dimension" /\ last_part l = L "vertical_layer_dimension".
Lemma on_layers_clone v : on_layers v <-> dims_ok (clone v).
Proof.
  unfold on_layers, dims_ok. split.
  - intros (h & l & n & E & H & V & I). exists (clone_dim h), (clone_dim l). cbn [clone cv_dims]. rewrite E. split; [reflexivity|].
    rewrite !clone_dim_last. split.
    + apply clone_name_h. assert (N : ~ In ":"%char n) by apply H. apply upper_bound_last in H; auto. now rewrite H.
    + apply clone_name_v. apply upper_bound_last in V; [exact V|]. cbn; intuition discriminate.
  - intros (h & l & E & H & V). cbn [clone cv_dims] in E. destruct (cv_dims v) as [|h0 [|l0 [|? ?]]]; cbn in E; try discriminate.
    injection E as <- <-. rewrite clone_dim_last in H, V. apply clone_name_h in H. apply (proj1 (clone_name_v _)) in V.
    assert (N : ~ In ":"%char (last_part h0)) by (cbn in H; repeat destruct H as [<-|H]; try destruct H; cbn; intuition discriminate).
    exists h0, l0, (last_part h0). split; [reflexivity|]. split; [now apply upper_bound_last|]. split; [|exact H].
    apply upper_bound_last; [cbn; intuition discriminate|exact V].
Qed.

(* ---- the variables chosen ---- *)
Definition first (l : list cvar) (v : cvar) : Prop := exists a b, l = a ++ v :: b /\ ~ In (cv_name v) (map cv_name a).
Lemma first_in l v : first l v -> In v l.
Proof. intros (a & b & -> & _). apply in_elt. Qed.
Lemma first_name l n : In n (map cv_name l) -> exists v, first l v /\ cv_name v = n.
Proof.
  induction l as [|w l IH]; [intros []|]. intros H. destruct (str_eqb (cv_name w) n) eqn:E.
  - apply str_eqb_eq in E. exists w. split; auto. exists [], l. split; auto.
  - apply str_eqb_neq in E. destruct H as [H|H]; [congruence|]. destruct (IH H) as (v & (a & b & -> & N) & X).
    exists v. split; auto. exists (w :: a), b. split; auto. cbn. intros [F|F]; auto. congruence.
Qed.
Lemma first_fun l v w : first l v -> first l w -> cv_name v = cv_name w -> v = w.
Proof.
  revert v w. induction l as [|u l IH]; intros v w (a & b & E & N) (a' & b' & E' & N') H; [now destruct a|].
  destruct a as [|x a], a' as [|x' a']; cbn in E, E'; injection E as -> ->; injection E' as H1 H2; subst.
  - reflexivity.
  - exfalso. apply N'. rewrite <- H. now left.
  - exfalso. apply N. rewrite H. now left.
  - apply IH; auto.
    + exists a, b. split; auto. intros F. apply N. now right.
    + exists a', b'. split; auto. intros F. apply N'. now right.
Qed.
Lemma first_snoc l v w : first (l ++ [v]) w <-> first l w \/ (w = v /\ ~ In (cv_name v) (map cv_name l)).
Proof.
  split.
  - intros (a & b & E & N). destruct (exists_last (l := w :: b) ltac:(discriminate)) as (m & x & Em).
    destruct m as [|y m]; cbn in Em.
    + injection Em as -> ->. apply app_inj_tail in E as [<- ->]. now right.
    + injection Em as -> ->. change (a ++ y :: m ++ [x]) with (a ++ (y :: m) ++ [x]) in E. rewrite app_assoc in E.
      apply app_inj_tail in E as [-> ->]. left. now exists a, m.
  - intros [(a & b & -> & N)|[-> N]].
    + exists a, (b ++ [v]). now rewrite <- app_assoc.
    + now exists l, [].
Qed.
Lemma chosen_first suites v : chosen suites v <-> first (List.concat suites) v.
Proof. reflexivity. Qed.
Lemma clone_cv_name v : cv_name (clone v) = cv_name v. Proof. reflexivity. Qed.
Lemma first_clone l v : first (map clone l) v <-> exists u, first l u /\ v = clone u.
Proof.
  split.
  - intros (a & b & E & N). apply map_eq_app in E as (a0 & b0 & -> & <- & E). destruct b0 as [|u b0]; [discriminate|].
    cbn in E. injection E as <- <-. exists u. split; auto. exists a0, b0. split; auto. rewrite map_map in N. exact N.
  - intros (u & (a & b & -> & N) & ->). exists (map clone a), (map clone b). rewrite map_app. split; auto. rewrite map_map. exact N.
Qed.
Lemma concat_clone suites : List.concat (map (map clone) suites) = map clone (List.concat suites).
Proof. symmetry. apply concat_map. Qed.

(* ---- add_constituent_vars ---- *)
Definition entry_of (v : cvar) (e : entry) : Prop :=
  e_std e = cv_name v /\
  ((state (cv_name v) /\ e_tend e = false /\ e_index e = L "index_of_" ++ cv_name v) \/
   (exists x, tendency x (cv_name v) /\ e_tend e = true /\ e_index e = L "index_of_" ++ x)).
Record ginv (pre : list cvar) (g : gst) : Prop := {
  gi_c : forall v, In v (g_consts g) <-> first pre v /\ state (cv_name v);
  gi_cn : NoDup (map cv_name (g_consts g));
  gi_t : forall v, In v (g_tends g) <-> first pre v /\ exists x, tendency x (cv_name v);
  gi_e : forall v, first pre v -> exists e, In e (g_entries g) /\ entry_of v e;
  gi_n : forall n, In n (map cv_name pre) <-> In n (map cv_name (g_consts g)) \/ In n (map cv_name (g_tends g));
  gi_en : NoDup (map e_std (g_entries g));
  gi_es : forall e, In e (g_entries g) -> In (e_std e) (map cv_name pre) }.
Lemma ginv_nil : ginv [] (mkG [] [] []).
Proof.
  constructor; cbn; try tauto; try constructor; try tauto.
  - intros [(a & b & E & _) _]. now destruct a.
  - intros [(a & b & E & _) _]. now destruct a.
  - intros v (a & b & E & _). now destruct a.
Qed.
Lemma nd_snoc {A} (l : list A) x : NoDup l -> ~ In x l -> NoDup (l ++ [x]).
Proof. intros. apply NoDup_snoc; auto. Qed.
Lemma add_one_old g v pre : ginv pre g -> In (cv_name v) (map cv_name pre) -> add_one g v = Ok g /\ ginv (pre ++ [v]) g.
Proof.
  intros G H. split.
  - unfold add_one. apply (gi_n _ _ G) in H. rewrite <- !mem_in in H. destruct H as [->| ->]; [reflexivity|]. now rewrite orb_true_r.
  - assert (X : forall w, first (pre ++ [v]) w <-> first pre w) by (intros w; rewrite first_snoc; tauto).
    assert (Y : forall n, In n (map cv_name (pre ++ [v])) <-> In n (map cv_name pre)).
    { intros n. rewrite map_app, in_app_iff. cbn. intuition congruence. }
    destruct G. constructor; auto.
    + intros w. rewrite X. auto.
    + intros w. rewrite X. auto.
    + intros w F. apply X in F. auto.
    + intros n. rewrite Y. auto.
    + intros e F. rewrite Y. auto.
Qed.
Lemma add_one_bad g v pre : ginv pre g -> ~ In (cv_name v) (map cv_name pre) -> ~ dims_ok v -> exists e, add_one g v = Raise e.
Proof.
  intros G H D. unfold add_one. rewrite (gi_n _ _ G) in H. rewrite <- !mem_in in H.
  destruct (mem (cv_name v) (map cv_name (g_consts g)) || mem (cv_name v) (map cv_name (g_tends g))) eqn:E.
  { apply orb_true_iff in E. tauto. }
  destruct (cv_dims v) as [|h [|d [|? ?]]] eqn:Ed; eauto.
  - destruct (str_eqb (last_part h) (L "horizontal_dimension")); cbn [negb]; eauto.
  - destruct (str_eqb (last_part h) (L "horizontal_dimension")) eqn:E1; cbn [negb]; eauto.
    destruct (str_eqb (last_part d) (L "vertical_layer_dimension")) eqn:E2; eauto.
    exfalso. apply D. apply str_eqb_eq in E1, E2. now exists h, d.
Qed.
Lemma add_one_new g v pre : ginv pre g -> regular (cv_name v) -> ~ In (cv_name v) (map cv_name pre) -> dims_ok v ->
  exists g', add_one g v = Ok g' /\ ginv (pre ++ [v]) g'.
Proof.
  intros G Rg H (h & d & Ed & E1 & E2). unfold add_one. pose proof H as H'. rewrite (gi_n _ _ G) in H'. rewrite <- !mem_in in H'.
  destruct (mem (cv_name v) (map cv_name (g_consts g)) || mem (cv_name v) (map cv_name (g_tends g))) eqn:E.
  { apply orb_true_iff in E. tauto. }
  rewrite Ed, E1, E2, !str_eqb_refl. cbn [negb].
  assert (NE : forall e, e_std e = cv_name v -> ~ In (e_std e) (map e_std (g_entries g))).
  { intros e -> F. apply in_map_iff in F as (e' & F1 & F2). apply (gi_es _ _ G) in F2. rewrite F1 in F2. contradiction. }
  assert (M : forall w, In w pre -> cv_name w <> cv_name v) by (intros w F Q; apply H; rewrite <- Q; now apply in_map).
  destruct Rg as [St|(x & T)].
  - rewrite (state_within _ St). cbn [bind]. eexists. split; [reflexivity|].
    assert (NT : forall x, ~ tendency x (cv_name v)) by (intros x; now apply state_no_tendency).
    constructor; cbn [g_consts g_tends g_entries].
    + intros w. rewrite first_snoc, in_app_iff, (gi_c _ _ G). cbn. split; [intros [[F F']|[<-|[]]]|intros [[F|[-> F]] F']]; auto.
    + rewrite map_app. apply nd_snoc; [apply G|]. intros F. apply H. apply (gi_n _ _ G). now left.
    + intros w. rewrite first_snoc, (gi_t _ _ G). split; [tauto|]. intros [[F|[-> F]] F']; auto. destruct F' as (x & F'). now apply NT in F'.
    + intros w F. apply first_snoc in F as [F|[-> F]].
      * destruct (gi_e _ _ G w F) as (e & I & X). exists e. split; auto. apply in_app_iff. now left.
      * eexists. split; [apply in_app_iff; right; now left|]. split; [reflexivity|]. now left.
    + intros n. rewrite !map_app, !in_app_iff, (gi_n _ _ G). cbn. tauto.
    + rewrite map_app. apply nd_snoc; [apply G|]. now apply (NE (mkE (cv_name v) false _)).
    + intros e F. apply in_app_iff in F as [F|[<-|[]]]; rewrite map_app, in_app_iff.
      * left. now apply (gi_es _ _ G).
      * right. now left.
  - rewrite (tendency_within _ _ T), (second_tendency _ _ T). cbn [bind]. eexists. split; [reflexivity|].
    assert (NS : ~ state (cv_name v)) by (intros F; now apply (state_no_tendency x) in F).
    constructor; cbn [g_consts g_tends g_entries].
    + intros w. rewrite first_snoc, (gi_c _ _ G). split; [tauto|]. intros [[F|[-> F]] F']; auto. contradiction.
    + apply G.
    + intros w. rewrite first_snoc, in_app_iff, (gi_t _ _ G). cbn. split; [intros [[F F']|[<-|[]]]|intros [[F|[-> F]] F']]; auto.
      split; [|now exists x]. right. auto.
    + intros w F. apply first_snoc in F as [F|[-> F]].
      * destruct (gi_e _ _ G w F) as (e & I & X). exists e. split; auto. apply in_app_iff. now left.
      * eexists. split; [apply in_app_iff; right; now left|]. split; [reflexivity|]. right. now exists x.
    + intros n. rewrite !map_app, !in_app_iff, (gi_n _ _ G). cbn. tauto.
    + rewrite map_app. apply nd_snoc; [apply G|]. now apply (NE (mkE (cv_name v) true _)).
    + intros e F. apply in_app_iff in F as [F|[<-|[]]]; rewrite map_app, in_app_iff.
      * left. now apply (gi_es _ _ G).
      * right. now left.
Qed.
Lemma dims_ok_dec v : dims_ok v \/ ~ dims_ok v.
Proof.
  unfold dims_ok. destruct (cv_dims v) as [|h [|d [|? ?]]]; try (right; intros (? & ? & ? & _); discriminate).
  destruct (str_eqb (last_part h) (L "horizontal_dimension")) eqn:E1, (str_eqb (last_part d) (L "vertical_layer_dimension")) eqn:E2.
  1: left; exists h, d; apply str_eqb_eq in E1, E2; auto.
  all: right; intros (? & ? & [= <- <-] & F1 & F2).
  - apply str_eqb_neq in E2. contradiction.
  - apply str_eqb_neq in E1. contradiction.
  - apply str_eqb_neq in E1. contradiction.
Qed.
Lemma add_all_spec : forall l pre g, ginv pre g -> (forall v, In v l -> regular (cv_name v)) ->
  (exists g', add_all g l = Ok g' /\ ginv (pre ++ l) g' /\ forall a v b, l = a ++ v :: b -> ~ In (cv_name v) (map cv_name (pre ++ a)) -> dims_ok v) \/
  (exists e, add_all g l = Raise e) /\ exists a v b, l = a ++ v :: b /\ ~ In (cv_name v) (map cv_name (pre ++ a)) /\ ~ dims_ok v.
Proof.
  induction l as [|v l IH]; intros pre g G Rg.
  - left. exists g. split; [reflexivity|]. rewrite app_nil_r. split; auto. intros a v b E. now destruct a.
  - cbn [add_all].
    assert (Step : forall g', add_one g v = Ok g' -> ginv (pre ++ [v]) g' -> (~ In (cv_name v) (map cv_name pre) -> dims_ok v) ->
      (exists g'', (g0 <- add_one g v ;; add_all g0 l) = Ok g'' /\ ginv (pre ++ v :: l) g'' /\ forall a w b, v :: l = a ++ w :: b -> ~ In (cv_name w) (map cv_name (pre ++ a)) -> dims_ok w) \/
      (exists e, (g0 <- add_one g v ;; add_all g0 l) = Raise e) /\ exists a w b, v :: l = a ++ w :: b /\ ~ In (cv_name w) (map cv_name (pre ++ a)) /\ ~ dims_ok w).
    { intros g' E G' D. rewrite E. cbn [bind]. destruct (IH (pre ++ [v]) g' G') as [(g'' & E' & G'' & W)|((e & E') & a & w & b & -> & N & W)].
      - intros w F. apply Rg. now right.
      - left. exists g''. split; auto. rewrite <- app_assoc in G''. split; auto. intros a w b F N. destruct a as [|u a]; cbn in F.
        + injection F as <- <-. rewrite app_nil_r in N. auto.
        + injection F as <- ->. eapply W; [reflexivity|]. now rewrite <- app_assoc.
      - right. split; [eauto|]. exists (v :: a), w, b. split; auto. rewrite <- app_assoc in N. auto. }
    destruct (in_dec (fun x y => list_eq_dec Ascii.ascii_dec x y) (cv_name v) (map cv_name pre)) as [I|N].
    + destruct (add_one_old g v pre G I) as [E G']. apply (Step g); auto. contradiction.
    + destruct (dims_ok_dec v) as [D|D].
      * destruct (add_one_new g v pre G (Rg v (or_introl eq_refl)) N D) as (g' & E & G'). apply (Step g'); auto.
      * right. destruct (add_one_bad g v pre G N D) as (e & ->). split; [cbn; eauto|]. exists [], v, l. rewrite app_nil_r. auto.
Qed.
Lemma check_tends_spec compat consts : forall ts, NoDup (map cv_name consts) -> (forall t, In t ts -> exists x, tendency x (cv_name t)) ->
  (check_tends compat consts ts = Ok tt /\ forall t x, In t ts -> tendency x (cv_name t) -> exists s, In s consts /\ cv_name s = x /\ compat t s = true) \/
  (exists e, check_tends compat consts ts = Raise e) /\ exists t x, In t ts /\ tendency x (cv_name t) /\ ~ exists s, In s consts /\ cv_name s = x /\ compat t s = true.
Proof.
  induction ts as [|t ts IH]; intros ND HT; [left; split; [reflexivity|intros t x []]|].
  cbn [check_tends]. destruct (HT t (or_introl eq_refl)) as (x & T). rewrite (second_tendency _ _ T). cbn [bind].
  assert (FI : forall s, In s (List.filter (fun c => str_eqb (cv_name c) x) consts) <-> In s consts /\ cv_name s = x).
  { intros s. rewrite filter_In, str_eqb_eq. tauto. }
  assert (U : forall s s', In s consts -> In s' consts -> cv_name s = cv_name s' -> s = s').
  { clear - ND. induction consts as [|c cs IHc]; [intros s s' []|]. cbn in ND. inversion ND as [|? ? N1 N2]; subst.
    intros s s' [<-|F] [<-|F'] Q; auto.
    - exfalso. apply N1. rewrite Q. now apply in_map.
    - exfalso. apply N1. rewrite <- Q. now apply in_map. }
  destruct (List.filter (fun c => str_eqb (cv_name c) x) consts) as [|c cs] eqn:Ef.
  - right. split; [eauto|]. exists t, x. split; [now left|]. split; auto. intros (s & I & Q & _). destruct (proj2 (FI s) (conj I Q)).
  - destruct (forallb (compat t) (c :: cs)) eqn:Fb.
    + destruct IH as [[E W]|((e & E) & t' & x' & I & T' & W)]; auto.
      { intros t' I. apply HT. now right. }
      * left. split; auto. intros t' x' [<-|I] T'; [|now apply W].
        pose proof (tendency_fun _ _ _ T T') as <-. destruct (proj1 (FI c) (or_introl eq_refl)) as [I Q].
        exists c. repeat split; auto. cbn in Fb. now apply andb_prop in Fb as [-> _].
      * right. split; [eauto|]. exists t', x'. split; [now right|]. auto.
    + right. split; [eauto|]. exists t, x. split; [now left|]. split; auto. intros (s & I & Q & C).
      assert (X : forallb (compat t) (c :: cs) = true); [|congruence]. apply forallb_forall. intros s' I'. apply FI in I' as [I' Q'].
      assert (s' = s) as -> by (apply U; congruence). exact C.
Qed.

Definition good (compat : cvar -> cvar -> bool) (suites : list (list cvar)) : Prop :=
  (forall v, chosen suites v -> on_layers v) /\
  (forall t x, chosen suites t -> tendency x (cv_name t) ->
     exists s, chosen suites s /\ cv_name s = x /\ compat (clone t) (clone s) = true).
Lemma generate_spec compat suites : (forall v, In v (List.concat suites) -> regular (cv_name v)) ->
  (good compat suites /\ exists g, generate compat suites = Ok (g_entries g, sorted (map cv_name (g_consts g))) /\ ginv (map clone (List.concat suites)) g) \/
  (~ good compat suites /\ exists e, generate compat suites = Raise e).
Proof.
  intros Rg. unfold generate. rewrite concat_clone.
  destruct (add_all_spec (map clone (List.concat suites)) [] (mkG [] [] []) ginv_nil) as [(g & E & G & W)|((e & E) & a & v & b & F & N & W)].
  - intros v I. apply in_map_iff in I as (u & <- & I). exact (Rg u I).
  - rewrite E. cbn [bind app] in *.
    assert (D : forall v, chosen suites v -> on_layers v).
    { intros v F. apply on_layers_clone. assert (F' : first (map clone (List.concat suites)) (clone v)) by (apply first_clone; eauto).
      destruct F' as (a & b & F1 & F2). eapply W; eauto. }
    destruct (check_tends_spec compat (g_consts g) (g_tends g) (gi_cn _ _ G)) as [[E' W']|((e & E') & t & x & I & T & W')].
    { intros t I. apply (gi_t _ _ G) in I. apply I. }
    + left. rewrite E'. cbn [bind]. split; [|exists g; auto]. split; auto. intros t x F T.
      assert (It : In (clone t) (g_tends g)).
      { apply (gi_t _ _ G). split; [apply first_clone; eauto|]. exists x. exact T. }
      destruct (W' _ x It T) as (s & I & Q & C). apply (gi_c _ _ G) in I as [I _]. apply first_clone in I as (u & I & ->).
      exists u. auto.
    + right. rewrite E'. cbn [bind]. split; [|eauto]. intros [_ X]. apply W'.
      apply (gi_t _ _ G) in I as [I _]. apply first_clone in I as (u & I & ->). destruct (X u x I T) as (s & F & Q & C).
      exists (clone s). split; auto. apply (gi_c _ _ G). split; [apply first_clone; eauto|]. rewrite clone_cv_name, Q. now apply tendency_state in T.
  - right. rewrite E. cbn [bind]. split; [|eauto]. intros [X _]. apply W. cbn [app] in *.
    assert (F' : first (map clone (List.concat suites)) v) by (exists a, b; auto).
    apply first_clone in F' as (u & F' & ->). apply on_layers_clone. now apply X.
Qed.
Lemma place_in n names : In n names -> exists k, place (L "index_of_" ++ n) names = Some k /\ nth_error names k = Some n.
Proof.
  induction names as [|m names IH]; [intros []|]. intros H. cbn [place].
  destruct (str_eqb (L "index_of_" ++ m) (L "index_of_" ++ n)) eqn:E.
  - apply str_eqb_eq in E. apply app_inv_head in E as ->. now exists 0.
  - destruct H as [->|H]; [now rewrite str_eqb_refl in E|]. destruct (IH H) as (k & K & N). rewrite K. now exists (S k).
Qed.
Lemma find_entry es e : NoDup (map e_std es) -> In e es -> List.find (fun x => str_eqb (e_std x) (e_std e)) es = Some e.
Proof.
  induction es as [|x es IH]; [intros _ []|]. cbn. intros N I. inversion N as [|? ? N1 N2]; subst.
  destruct (str_eqb (e_std x) (e_std e)) eqn:E.
  - destruct I as [->|I]; auto. apply str_eqb_eq in E. exfalso. apply N1. rewrite E. now apply in_map.
  - destruct I as [->|I]; [now rewrite str_eqb_refl in E|]. auto.
Qed.
Lemma passed_spec g pre v names : ginv pre g -> first pre v ->
  (forall n, In n names <-> In n (map cv_name (g_consts g))) ->
  (state (cv_name v) -> exists k, passed (g_entries g) names (cv_name v) = Some (false, k) /\ nth_error names k = Some (cv_name v)) /\
  (forall x, tendency x (cv_name v) -> (exists s, In s (g_consts g) /\ cv_name s = x) -> exists k, passed (g_entries g) names (cv_name v) = Some (true, k) /\ nth_error names k = Some x).
Proof.
  intros G F HN. destruct (gi_e _ _ G v F) as (e & I & E1 & E2). unfold passed. rewrite <- E1, (find_entry _ _ (gi_en _ _ G) I). rewrite E1. split.
  - intros St. destruct E2 as [(_ & -> & ->)|(x & T & _)]; [|now apply (state_no_tendency x) in St].
    destruct (place_in (cv_name v) names) as (k & -> & K); [apply HN; apply in_map; apply (gi_c _ _ G); auto|]. cbn. eauto.
  - intros x T (s & Is & Q). destruct E2 as [(St & _)|(y & T' & -> & ->)]; [now apply (state_no_tendency x) in St|].
    pose proof (tendency_fun _ _ _ T T') as <-.
    destruct (place_in x names) as (k & -> & K); [apply HN; rewrite <- Q; now apply in_map|]. cbn. eauto.
Qed.
