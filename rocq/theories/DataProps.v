(* DataProps.v: C37 (variable lists of the datatable) and C38 (report layout). *)
From Coq Require Import Permutation Sorting.Sorted.
From Verif Require Import PyStr ReqModel ReqProofs DataModel DataSpec FWFold.
From Verif Require FWProofs FWKeep CheckProofs.
Open Scope nat_scope.
Open Scope list_scope.

(* ---- sorted() ---- *)
Lemma leb_before a : forall b, str_leb a b = true -> a <> b -> before a b.
Proof.
  induction a as [|x a IH]; intros [|y b] H N; try now (exfalso; apply N).
  - constructor.
  - cbn [str_leb] in H. destruct (Ascii.eqb_spec x y) as [->|E].
    + apply before_tail. apply IH; congruence.
    + apply before_head. apply Nat.leb_le in H.
      destruct (Nat.eq_dec (code x) (code y)) as [C|C]; [|lia].
      exfalso. apply E. unfold code in C. rewrite <- (ascii_nat_embedding x), <- (ascii_nat_embedding y). now rewrite C.
Qed.
Lemma leb_total a : forall b, str_leb a b = false -> str_leb b a = true.
Proof.
  induction a as [|x a IH]; intros [|y b] H; auto; try (cbn [str_leb] in H; discriminate H).
  cbn [str_leb] in *. rewrite Ascii.eqb_sym. destruct (Ascii.eqb_spec x y) as [->|E]; auto.
  apply Nat.leb_gt in H. apply Nat.leb_le. lia.
Qed.
Lemma before_trans a b : before a b -> forall c, before b c -> before a c.
Proof.
  induction 1 as [c s|x y s t H|x s t H IH]; intros d K; inversion K; subst; try (now constructor; lia); try (apply before_tail; now apply IH).
Qed.
Lemma insert_ascending x l : ~ In x l -> ascending l -> ascending (insert x l).
Proof.
  induction l as [|y l IH]; intros N A; cbn [insert].
  - repeat constructor.
  - inversion A as [|y' l' F A']; subst. destruct (str_leb x y) eqn:E.
    + assert (before x y) as B by (apply leb_before; auto; intros ->; apply N; now left).
      constructor; [|exact A]. constructor; auto. apply Forall_forall. intros z Z.
      rewrite Forall_forall in F. apply before_trans with y; auto.
    + apply leb_total in E. constructor; [|apply IH; auto; intros I; apply N; now right].
      apply Forall_forall. intros z Z. apply (Permutation_in _ (insert_perm x l)) in Z. destruct Z as [<-|Z].
      * apply leb_before; auto. intros ->. apply N. now left.
      * rewrite Forall_forall in F. auto.
Qed.
Lemma sorted_ascending l : NoDup l -> ascending (sorted l).
Proof.
  induction 1 as [|x l N D IH]; cbn [sorted fold_right]; [constructor|].
  apply insert_ascending; auto. rewrite in_sorted. auto.
Qed.

(* ---- first match ---- *)
Lemma find_first {A} (f : A -> bool) l x : find f l = Some x <-> first (fun y => f y = true) l x.
Proof.
  induction l as [|a l IH]; cbn [find].
  - split; [discriminate|]. intros (pre & post & E & _). destruct pre; discriminate.
  - destruct (f a) eqn:E; split; intros H.
    + injection H as <-. exists [], l. repeat split; auto.
    + destruct H as ([|b pre] & post & Q & X & N); injection Q as <- ->; auto.
      exfalso. apply (N a); auto. now left.
    + apply IH in H as (pre & post & -> & X & N). exists (a :: pre), post. repeat split; auto.
      intros y [<-|Y]; auto. congruence.
    + apply IH. destruct H as ([|b pre] & post & Q & X & N); injection Q as <- ->; [congruence|].
      exists pre, post. repeat split; auto. intros y Y. apply N. now right.
Qed.
Lemma first_ext {A} (P Q : A -> Prop) l x : (forall y, P y <-> Q y) -> first P l x <-> first Q l x.
Proof.
  intros H. split; intros (pre & post & E & X & N); exists pre, post; repeat split; auto.
  - now apply H.
  - intros y Y K. apply (N y Y). now apply H.
  - now apply H.
  - intros y Y K. apply (N y Y). now apply H.
Qed.
Lemma find_by_name t p e : find_var_dictionary t (Some p) None = Some e <-> first (fun x => xd_name x = p) (xt_dicts t) e.
Proof.
  unfold find_var_dictionary. rewrite find_first. apply first_ext. intros y. cbn [is_none_or].
  rewrite andb_true_r. apply str_eqb_eq.
Qed.
Lemma find_by_type t p e : find_var_dictionary t None (Some p) = Some e <-> first (fun x => xd_type x = p) (xt_dicts t) e.
Proof. unfold find_var_dictionary. rewrite find_first. apply first_ext. intros y. cbn [is_none_or andb]. apply str_eqb_eq. Qed.
Lemma find_by_both t p q e : find_var_dictionary t (Some p) (Some q) = Some e <->
  first (fun x => xd_name x = p /\ xd_type x = q) (xt_dicts t) e.
Proof.
  unfold find_var_dictionary. rewrite find_first. apply first_ext. intros y. cbn [is_none_or].
  now rewrite andb_true_iff, !str_eqb_eq.
Qed.

(* ---- protected ---- *)
Lemma protected_here_spec v d : protected_here v d = true <->
  exists x, first (fun y => xv_name y = v) (xd_vars d) x /\ xv_protected x = Some (L "True").
Proof.
  unfold protected_here. split.
  - destruct (find _ _) as [x|] eqn:F; [|discriminate]. intros H. exists x. split.
    + apply find_first in F. revert F. apply first_ext. intros y. symmetry. apply str_eqb_eq.
    + destruct (xv_protected x) as [p|]; [|discriminate]. apply str_eqb_eq in H. congruence.
  - intros (x & F & P).
    rewrite (proj2 (find_first (fun x => str_eqb (xv_name x) v) (xd_vars d) x)).
    + rewrite P. apply str_eqb_refl.
    + revert F. apply first_ext. intros y. apply str_eqb_eq.
Qed.
Lemma protected_step t v d : protected t v d <->
  protected_here v d = true \/
  exists p e, xd_parent d = Some p /\ first (fun x => xd_name x = p) (xt_dicts t) e /\ protected t v e.
Proof.
  split.
  - intros (e & x & A & F & P). destruct A as [d|d p e f Q FE A].
    + left. apply protected_here_spec. eauto.
    + right. exists p, e. repeat split; auto. exists f, x. auto.
  - intros [H|(p & e & Q & F & f & x & A & FX & P)].
    + apply protected_here_spec in H as (x & F & P). exists d, x. repeat split; auto. constructor.
    + exists f, x. repeat split; auto. now apply anc_step with p e.
Qed.
Lemma loop_spec t v : forall fuel d b, is_variable_protected fuel t v d = Some b ->
  (b = true <-> exists d', d = Some d' /\ protected t v d').
Proof.
  induction fuel as [|k IH]; intros [d|] b H; cbn [is_variable_protected] in H; try discriminate.
  - injection H as <-. split; [discriminate|intros (d & Q & _); discriminate].
  - destruct (protected_here v d) eqn:P.
    + injection H as <-. split; auto. intros _. exists d. split; auto. apply protected_step. auto.
    + apply IH in H. rewrite H. clear H IH. split.
      * intros (e & Q & PE). destruct (xd_parent d) as [p|] eqn:PP; [|discriminate].
        apply find_by_name in Q. exists d. split; auto. apply protected_step. right. eauto.
      * intros (e & Q & PE). injection Q as <-. apply protected_step in PE as [PE|(p & e & PP & F & PE)]; [congruence|].
        rewrite PP. apply find_by_name in F. eauto.
  - injection H as <-. split; [discriminate|intros (d & Q & _); discriminate].
Qed.
Lemma loop_one t v fuel d b : is_variable_protected fuel t v (Some d) = Some b -> (b = true <-> protected t v d).
Proof.
  intros H. apply loop_spec in H. rewrite H. split; [intros (e & Q & P); now injection Q as <-|eauto].
Qed.

(* ---- the scans ---- *)
Lemma host_scan_spec t excl host h fuel : forall vars vs ev vs' ev', host_scan fuel t excl host h vars (vs, ev) = Some (vs', ev') ->
  (NoDup vs -> NoDup vs') /\
  (forall v, In v vs' <-> In v vs \/ host = true /\ (exists x, In x vars /\ xv_name x = v) /\ (excl = true -> ~ protected t v h)) /\
  (forall v, In v ev' <-> In v ev \/ host = false /\ excl = true /\ (exists x, In x vars /\ xv_name x = v) /\ protected t v h).
Proof.
  induction vars as [|x r IH]; intros vs ev vs' ev' H; cbn [host_scan] in H.
  - injection H as <- <-. split; auto. split; intros v; split; auto.
    + intros [I|(_ & (y & [] & _) & _)]; auto.
    + intros [I|(_ & _ & (y & [] & _) & _)]; auto.
  - destruct (exclude fuel t excl (xv_name x) h) as [e|] eqn:E; [|discriminate].
    assert (e = true <-> excl = true /\ protected t (xv_name x) h) as EE.
    { unfold exclude in E. destruct excl; [apply loop_one in E; tauto|]. injection E as <-. split; [discriminate|intros [Q _]; discriminate]. }
    clear E. cbn [fst snd] in H. destruct host.
    + apply IH in H as (N & V & W). split; [|split].
      * intros D. apply N. destruct e; auto. now apply nd_add.
      * intros v. rewrite V. clear IH N V W. split.
        -- intros [I|(_ & (y & Y & Q) & P)].
           ++ destruct e; auto. apply in_s_add in I as [I| ->]; auto. right. repeat split; auto.
              ** exists x. split; auto. now left.
              ** intros -> P. assert (false = true) by (apply EE; auto). discriminate.
           ++ right. repeat split; auto. exists y. split; auto. now right.
        -- intros [I|(_ & (y & [<-|Y] & Q) & P)].
           ++ left. destruct e; auto. apply in_s_add. auto.
           ++ left. subst v. destruct e.
              ** exfalso. destruct EE as [E1 _]. destruct (E1 eq_refl) as [X1 X2]. now apply (P X1).
              ** apply in_s_add. auto.
           ++ right. repeat split; eauto.
      * intros v. rewrite W. split; intros [I|(Q & _)]; auto; discriminate.
    + apply IH in H as (N & V & W). split; [|split]; auto.
      * intros v. rewrite V. split; intros [I|(Q & _)]; auto; discriminate.
      * intros v. rewrite W. clear IH N V W. split.
        -- intros [I|(_ & X & (y & Y & Q) & P)].
           ++ destruct e; auto. apply in_app_or in I as [I|[<-|[]]]; auto. right.
              destruct EE as [E1 _]. destruct (E1 eq_refl) as [X1 X2]. repeat split; auto. exists x. split; auto. now left.
           ++ right. repeat split; auto. exists y. split; auto. now right.
        -- intros [I|(_ & X & (y & [<-|Y] & Q) & P)].
           ++ left. destruct e; auto. apply in_or_app. auto.
           ++ left. subst v. destruct e; [apply in_or_app; right; now left|].
              exfalso. assert (false = true) by (apply EE; auto). discriminate.
           ++ right. repeat split; eauto.
Qed.
Lemma group_scan_spec t excl ev allowed d fuel : forall vars acc acc', group_scan fuel t excl ev allowed d vars acc = Some acc' ->
  (NoDup acc -> NoDup acc') /\
  (forall v, In v acc' <-> In v acc \/ exists x i, In x vars /\ xv_name x = v /\ xv_intent x = Some i /\ In i allowed /\
     (excl = true -> ~ In v ev /\ ~ protected t v d)).
Proof.
  induction vars as [|x r IH]; intros acc acc' H; cbn [group_scan] in H.
  - injection H as <-. split; auto. intros v. split; auto. intros [I|(y & i & [] & _)]; auto.
  - destruct (if excl then _ else _) as [e|] eqn:E; [|discriminate].
    assert (e = true <-> excl = true /\ (In (xv_name x) ev \/ protected t (xv_name x) d)) as EE.
    { destruct excl.
      - destruct (mem (xv_name x) ev) eqn:M.
        + injection E as <-. apply mem_in in M. tauto.
        + apply loop_one in E. apply mem_not in M. tauto.
      - injection E as <-. split; [discriminate|intros [Q _]; discriminate]. }
    clear E. set (ok := match xv_intent x with Some i => mem i allowed | None => false end) in H. cbv zeta in H.
    apply IH in H as (N & V). clear IH. split.
    + intros D. apply N. destruct (ok && negb e); auto. now apply nd_add.
    + intros v. rewrite V. clear N V. split.
      * intros [I|(y & i & Y & Q & R & S & P)].
        -- destruct (ok && negb e) eqn:O; auto. apply in_s_add in I as [I| ->]; auto. right.
           apply andb_true_iff in O as [O O2]. unfold ok in O. destruct (xv_intent x) as [i|] eqn:XI; [|discriminate].
           apply mem_in in O. exists x, i. repeat split; auto; [now left| |].
           ++ intros I. assert (e = true) as Z by (apply EE; auto). now rewrite Z in O2.
           ++ intros I. assert (e = true) as Z by (apply EE; auto). now rewrite Z in O2.
        -- right. exists y, i. split; [now right|auto].
      * intros [I|(y & i & [<-|Y] & Q & R & S & P)].
        -- left. destruct (ok && negb e); auto. apply in_s_add. auto.
        -- left. subst v. assert (ok = true) as O by (unfold ok; rewrite R; now apply mem_in).
           rewrite O. destruct e; cbn [negb andb]; [|apply in_s_add; auto]. exfalso.
           destruct EE as [E1 _]. destruct (E1 eq_refl) as [X Z]. destruct (P X) as [P1 P2]. destruct Z; auto.
        -- right. exists y, i. auto.
Qed.
Lemma groups_scan_spec t excl ev allowed fuel : forall gs acc acc', groups_scan fuel t excl ev allowed gs acc = Some acc' ->
  (NoDup acc -> NoDup acc') /\
  (forall v, In v acc' <-> In v acc \/ exists g d x i, In g gs /\ call_list_of t g d /\ In x (xd_vars d) /\ xv_name x = v /\ xv_intent x = Some i /\ In i allowed /\
     (excl = true -> ~ In v ev /\ ~ protected t v d)).
Proof.
  induction gs as [|g r IH]; intros acc acc' H; cbn [groups_scan] in H.
  - injection H as <-. split; auto. intros v. split; auto. intros [I|(y & i & ? & ? & [] & _)]; auto.
  - destruct (find_var_dictionary t (Some (g ++ L "_call_list")) (Some (L "group_call_list"))) as [d|] eqn:F.
    + destruct (group_scan fuel t excl ev allowed d (xd_vars d) acc) as [acc1|] eqn:G; [|discriminate].
      apply group_scan_spec in G as (N1 & V1). apply IH in H as (N & V). split; auto.
      intros v. rewrite V, V1. split.
      * intros [[I|(x & i & X & R)]|(g' & d' & x & i & I & C & R)]; auto; right.
        -- exists g, d, x, i. repeat split; try tauto; [now left|]. now apply find_by_both.
        -- exists g', d', x, i. split; [now right|auto].
      * intros [I|(g' & d' & x & i & [<-|I] & C & R)]; auto.
        -- left. right. unfold call_list_of in C. apply find_by_both in C. assert (Some d' = Some d) as Z by (rewrite <- C; exact F). injection Z as ->. eauto.
        -- right. exists g', d', x, i. auto.
    + apply IH in H as (N & V). split; auto. intros v. rewrite V. split.
      * intros [I|(g' & d' & x & i & I & R)]; auto. right. exists g', d', x, i. split; [now right|auto].
      * intros [I|(g' & d' & x & i & [<-|I] & C & R)]; auto.
        -- unfold call_list_of in C. apply find_by_both in C. assert (Some d' = None) as Z by (rewrite <- C; exact F). discriminate.
        -- right. exists g', d', x, i. auto.
Qed.
Lemma group_names_spec t suite g : In g (suite_group_names t suite) <-> group_of t suite g.
Proof.
  unfold suite_group_names, group_of. rewrite in_flat_map. split.
  - intros (s & S & I). destruct (str_eqb (xs_name s) suite) eqn:E; [|easy]. apply str_eqb_eq in E.
    apply in_map_iff in I as ((tag & g') & <- & I). apply filter_In in I as [I T]. cbn [fst snd] in *.
    apply str_eqb_eq in T. subst tag. eauto.
  - intros (s & S & E & I). exists s. split; auto. rewrite E, str_eqb_refl.
    apply in_map_iff. exists (L "group", g). split; auto. apply filter_In. auto.
Qed.
Lemma kind_allowed k : exists l, allowed_intents (intent_word k) = Ok l /\ forall i, In i l <-> wanted k i.
Proof.
  destruct k; cbn [intent_word].
  - eexists. split; [reflexivity|]. intros i. cbn [In wanted]. intuition.
  - eexists. split; [vm_compute; reflexivity|]. intros i. cbn [In wanted]. intuition.
  - eexists. split; [vm_compute; reflexivity|]. intros i. cbn [In wanted]. intuition.
Qed.
Lemma kind_not_host k : is_host (intent_word k) = false. Proof. now destruct k. Qed.

Theorem C37_exact : forall fuel t suite k excl r,
  retrieve_variable_list fuel t suite (intent_word k) excl = Some r ->
  exists l, r = Ok l /\ ascending l /\ forall v, In v l <-> listed t suite k excl v.
Proof.
  intros fuel t suite k excl r H. unfold retrieve_variable_list in H.
  destruct (kind_allowed k) as (al & A & AL). rewrite A, kind_not_host, orb_false_r in H. cbv zeta in H.
  match type of H with match ?s with _ => _ end = _ => destruct s as [(vs, ev)|] eqn:S; [|discriminate] end.
  destruct (groups_scan fuel t excl ev al (suite_group_names t suite) vs) as [acc|] eqn:G; [|discriminate].
  injection H as <-. apply groups_scan_spec in G as (N & V).
  assert (vs = [] /\ (forall v, In v ev <-> excl = true /\ exists h, the_host t h /\ has_var h v /\ protected t v h)) as (-> & EV).
  { destruct excl.
    - destruct (find_var_dictionary t None (Some (L "host"))) as [h|] eqn:F.
      + apply host_scan_spec in S as (_ & V1 & V2). split.
        * destruct vs as [|v vs]; auto. exfalso. destruct (V1 v) as [X _]. destruct (X (or_introl eq_refl)) as [[]|(Q & _)]. discriminate.
        * intros v. rewrite V2. split.
          -- intros [[]|(_ & Q & X & P)]. split; auto. exists h. split; [now apply find_by_type|split; auto].
          -- intros (_ & h' & HH & X & P). right. unfold the_host in HH. apply find_by_type in HH. rewrite HH in F. injection F as ->. auto.
      + injection S as <- <-. split; auto. intros v. split; [easy|]. intros (_ & h & HH & _). unfold the_host in HH. apply find_by_type in HH. congruence.
    - injection S as <- <-. split; auto. intros v. split; [easy|]. intros (Q & _). discriminate. }
  exists (sorted acc). split; auto. split; [apply sorted_ascending, N; constructor|].
  intros v. rewrite in_sorted, V. unfold listed. split.
  - intros [[]|(g & d & x & i & I & C & X & Q & R & A2 & P)]. exists g, d, x, i. repeat split; auto.
    + now apply group_names_spec.
    + now apply AL.
    + destruct (P H). auto.
    + intros h HH HV HP. destruct (P H) as [NE _]. apply NE. apply EV. eauto.
  - intros (g & d & x & i & I & C & X & Q & R & W & P). right. exists g, d, x, i. repeat split; auto.
    + now apply group_names_spec.
    + now apply AL.
    + intros IE. apply EV in IE as (_ & h & HH & HV & HP). destruct (P H) as [_ NP]. now apply (NP h).
    + destruct (P H). auto.
Qed.
Print Assumptions C37_exact.

Theorem C37_host : forall fuel t suite excl r,
  retrieve_variable_list fuel t suite (Some (L "host")) excl = Some r ->
  exists l, r = Ok l /\ ascending l /\
    forall v, In v l <-> exists h, the_host t h /\ has_var h v /\ (excl = true -> ~ protected t v h).
Proof.
  intros fuel t suite excl r H. unfold retrieve_variable_list in H.
  replace (allowed_intents (Some (L "host"))) with (Ok (A := list str) []) in H by (vm_compute; reflexivity).
  replace (is_host (Some (L "host"))) with true in H by (vm_compute; reflexivity). rewrite orb_true_r in H. cbv zeta in H.
  destruct (find_var_dictionary t None (Some (L "host"))) as [h|] eqn:F.
  - destruct (host_scan fuel t excl true h (xd_vars h) ([], [])) as [(vs, ev)|] eqn:S; [|discriminate].
    injection H as <-. apply host_scan_spec in S as (N & V & _). exists (sorted vs). split; auto.
    split; [apply sorted_ascending, N; constructor|]. intros v. rewrite in_sorted, V. split.
    + intros [[]|(_ & X & P)]. exists h. split; [now apply find_by_type|auto].
    + intros (h' & HH & X & P). unfold the_host in HH. apply find_by_type in HH. rewrite HH in F. injection F as ->. auto.
  - injection H as <-. exists []. split; auto. split; [constructor|]. intros v. split; [easy|].
    intros (h & HH & _). unfold the_host in HH. apply find_by_type in HH. congruence.
Qed.
Print Assumptions C37_host.

Theorem C37_invalid : forall fuel t suite i excl, i <> L "host" -> i <> L "input" -> i <> L "output" ->
  retrieve_variable_list fuel t suite (Some i) excl = Some (Raise "CCPPDatatableError").
Proof.
  intros fuel t suite i excl A B C. unfold retrieve_variable_list, allowed_intents.
  apply str_eqb_neq in A, B, C. now rewrite A, B, C.
Qed.
Print Assumptions C37_invalid.

(* ---- termination ---- *)
Definition parent_in (t : xtable) (d e : xdict) : Prop :=
  exists p, xd_parent d = Some p /\ first (fun x => xd_name x = p) (xt_dicts t) e.
Lemma loop_ends t v rank : (forall d e, parent_in t d e -> rank e < rank d) ->
  forall fuel d, rank d < fuel -> is_variable_protected fuel t v (Some d) <> None.
Proof.
  intros R. induction fuel as [|k IH]; intros d Q; [lia|]. cbn [is_variable_protected].
  destruct (protected_here v d); [discriminate|]. destruct (xd_parent d) as [p|] eqn:P.
  - destruct (find_var_dictionary t (Some p) None) as [e|] eqn:F; [|destruct k; discriminate].
    apply IH. apply find_by_name in F. specialize (R d e). cut (rank e < rank d); [lia|]. apply R. exists p. auto.
  - destruct k; discriminate.
Qed.
Lemma exclude_ends t v rank excl fuel d : (forall d e, parent_in t d e -> rank e < rank d) ->
  rank d < fuel -> exclude fuel t excl v d <> None.
Proof. intros R Q. unfold exclude. destruct excl; [|discriminate]. now apply loop_ends with rank. Qed.
Lemma host_scan_ends t rank excl host h fuel : (forall d e, parent_in t d e -> rank e < rank d) -> rank h < fuel ->
  forall vars acc, host_scan fuel t excl host h vars acc <> None.
Proof.
  intros R Q. induction vars as [|x r IH]; intros acc; cbn [host_scan]; [discriminate|].
  destruct (exclude fuel t excl (xv_name x) h) eqn:E; [apply IH|]. exfalso. now apply (exclude_ends t (xv_name x) rank excl fuel h).
Qed.
Lemma group_scan_ends t rank excl ev al d fuel : (forall d e, parent_in t d e -> rank e < rank d) -> rank d < fuel ->
  forall vars acc, group_scan fuel t excl ev al d vars acc <> None.
Proof.
  intros R Q. induction vars as [|x r IH]; intros acc; cbn [group_scan]; [discriminate|].
  destruct excl; [|apply IH]. destruct (mem (xv_name x) ev); [apply IH|].
  destruct (is_variable_protected fuel t (xv_name x) (Some d)) eqn:E; [apply IH|]. exfalso. now apply (loop_ends t (xv_name x) rank R fuel d).
Qed.
(* if the parents of the dictionaries do not form a cycle, every query ends *)
Theorem C37_terminates : forall t suite i excl (rank : xdict -> nat),
  (forall d e, parent_in t d e -> rank e < rank d) ->
  exists enough, forall fuel, enough <= fuel -> retrieve_variable_list fuel t suite i excl <> None.
Proof.
  intros t suite i excl rank R. exists (S (list_max (map rank (xt_dicts t)))). intros fuel F.
  assert (forall d, In d (xt_dicts t) -> rank d < fuel) as B.
  { intros d I. assert (rank d <= list_max (map rank (xt_dicts t))); [|lia].
    pose proof (proj1 (list_max_le (map rank (xt_dicts t)) _) (le_n _)) as X. rewrite Forall_forall in X. apply X. now apply in_map. }
  assert (forall n m d, find_var_dictionary t n m = Some d -> rank d < fuel) as C.
  { intros n m d H. apply B. unfold find_var_dictionary in H. apply find_some in H. tauto. }
  unfold retrieve_variable_list. destruct (allowed_intents i) as [al|]; [|discriminate]. cbv zeta.
  assert (forall vs ev gs, groups_scan fuel t excl ev al gs vs <> None) as G.
  { intros vs ev gs. revert vs. induction gs as [|g gs IH]; intros vs; cbn [groups_scan]; [discriminate|].
    destruct (find_var_dictionary t _ _) as [d|] eqn:D; [|apply IH].
    destruct (group_scan fuel t excl ev al d (xd_vars d) vs) eqn:E; [apply IH|]. exfalso.
    now apply (group_scan_ends t rank excl ev al d fuel R (C _ _ _ D) (xd_vars d) vs). }
  assert (forall x : option (list str * list str), x <> None ->
    match x with None => None | Some (vset, ev) => if is_host i then Some (Ok (sorted vset)) else
      match groups_scan fuel t excl ev al (suite_group_names t suite) vset with None => None | Some vset => Some (Ok (sorted vset)) end end <> None) as K.
  { intros [(vs, ev)|] X; [|congruence]. destruct (is_host i); [discriminate|].
    destruct (groups_scan fuel t excl ev al (suite_group_names t suite) vs) eqn:E; [discriminate|]. exfalso. now apply (G vs ev (suite_group_names t suite)). }
  apply K. destruct (excl || is_host i); [|discriminate].
  destruct (find_var_dictionary t None _) as [h|] eqn:D; [|discriminate].
  apply host_scan_ends with rank; auto. now apply (C _ _ _ D).
Qed.
Print Assumptions C37_terminates.

(* ---- generated tables ---- *)
Definition all_groups (a : gapi) : list str :=
  flat_map (fun s => map (fun g => gs_name s ++ L "_" ++ gg_name g) (gs_groups s)) (ga_suites a).
Definition not_call_list (d : xdict) : Prop := xd_type d <> L "group_call_list".
Lemma dict_in_suites (ss : list gsuite) d :
  (forall s g e, In s ss -> In g (gs_groups s) -> In e (gg_inner g) -> not_call_list e) ->
  In d (flat_map suite_dicts ss) -> xd_type d = L "group_call_list" ->
  exists s g, In s ss /\ In g (gs_groups s) /\ gg_call g <> [] /\ xd_vars d = gg_call g /\ xd_name d = full_name s g ++ L "_call_list".
Proof.
  intros NI I T. apply in_flat_map in I as (s & S & I). unfold suite_dicts in I. destruct I as [<-|I]; [discriminate|].
  apply in_flat_map in I as (g & G & I). unfold group_dicts in I. destruct I as [<-|I]; [discriminate|].
  apply in_app_or in I as [I|I].
  - destruct (gg_call g) as [|x c] eqn:C; [easy|]. destruct I as [<-|[]]. exists s, g. rewrite C. repeat split; auto. discriminate.
  - exfalso. now apply (NI s g d S G I).
Qed.
Lemma nodup_group (ss : list gsuite) : NoDup (flat_map (fun s => map (full_name s) (gs_groups s)) ss) ->
  forall s g s' g', In s ss -> In g (gs_groups s) -> In s' ss -> In g' (gs_groups s') -> full_name s g = full_name s' g' -> s = s' /\ g = g'.
Proof.
  induction ss as [|s0 ss IH]; intros N s g s' g' S G S' G' Q; [easy|]. cbn [flat_map] in N.
  assert (forall s1 g1, In s1 ss -> In g1 (gs_groups s1) -> ~ In (full_name s1 g1) (map (full_name s0) (gs_groups s0))) as X.
  { intros s1 g1 S1 G1 I.
    clear -N S1 G1 I. revert N I. generalize (map (full_name s0) (gs_groups s0)) as l. intros l N I.
    induction l as [|y l IL]; [easy|]. cbn [app] in N. inversion N as [|? ? N1 N2]; subst. destruct I as [->|I]; [|auto].
    apply N1. apply in_or_app. right. apply in_flat_map. exists s1. split; auto. now apply in_map. }
  destruct S as [->|S]; destruct S' as [->|S'].
  - split; auto. assert (NoDup (map (full_name s') (gs_groups s'))) as D.
    { clear -N. revert N. generalize (map (full_name s') (gs_groups s')) as l. intros l. induction l as [|y l IL]; intros N; [constructor|].
      cbn [app] in N. inversion N; subst. constructor; auto. intros I. apply H1. apply in_or_app. auto. }
    clear -D G G' Q. induction (gs_groups s') as [|h l IL]; [easy|]. cbn [map] in D. inversion D as [|? ? D1 D2]; subst.
    destruct G as [->|G]; destruct G' as [->|G']; auto.
    + exfalso. apply D1. rewrite Q. now apply in_map.
    + exfalso. apply D1. rewrite <- Q. now apply in_map.
  - exfalso. apply (X s' g' S' G'). rewrite <- Q. now apply in_map.
  - exfalso. apply (X s g S G). rewrite Q. now apply in_map.
  - apply IH; auto. clear -N. revert N. generalize (map (full_name s0) (gs_groups s0)) as l. intros l. induction l as [|y l IL]; auto. intros N. inversion N; auto.
Qed.
Lemma first_exists {A} (P : A -> Prop) (D : forall x, P x \/ ~ P x) l x : In x l -> P x -> exists y, first P l y.
Proof.
  induction l as [|a l IH]; [easy|]. intros I X. destruct (D a) as [Pa|Na].
  - exists a, [], l. repeat split; auto.
  - destruct I as [->|I]; [easy|]. destruct (IH I X) as (y & pre & post & -> & Y & N). exists y, (a :: pre), post. repeat split; auto.
    intros z [<-|Z]; auto.
Qed.
Theorem C37_generated : forall a suite k,
  NoDup (all_groups a) ->
  not_call_list (ga_host a) -> not_call_list (ga_api a) ->
  (forall s g e, In s (ga_suites a) -> In g (gs_groups s) -> In e (gg_inner g) -> not_call_list e) ->
  exists l, retrieve_variable_list 0 (generate_table a) suite (intent_word k) false = Some (Ok l) /\ ascending l /\
    forall v, In v l <-> exists s g x i, In s (ga_suites a) /\ gs_name s = suite /\ In g (gs_groups s) /\ gg_parts g = true /\
                                         In x (gg_call g) /\ xv_name x = v /\ xv_intent x = Some i /\ wanted k i.
Proof.
  intros a suite k ND NH NA NI. set (t := generate_table a).
  assert (exists r, retrieve_variable_list 0 t suite (intent_word k) false = Some r) as (r & H).
  { unfold retrieve_variable_list. destruct (kind_allowed k) as (al & A & _). rewrite A, kind_not_host. cbn [orb].
    assert (forall gs vs, exists o, groups_scan 0 t false [] al gs vs = Some o) as G.
    { induction gs as [|g gs IH]; intros vs; cbn [groups_scan]; [eauto|].
      destruct (find_var_dictionary t _ _) as [d|]; [|apply IH].
      assert (forall vars vs, exists o, group_scan 0 t false [] al d vars vs = Some o) as GS.
      { induction vars as [|x vars IV]; intros ws; cbn [group_scan]; [eauto|]. apply IV. }
      destruct (GS (xd_vars d) vs) as (o & ->). apply IH. }
    destruct (G (suite_group_names t suite) []) as (o & ->). eauto. }
  destruct (C37_exact _ _ _ _ _ _ H) as (l & -> & A & V). exists l. repeat split; auto; rename v into w.
  - intros I. apply V in I as (g & d & x & i & (s & S & SN & SI) & (pre & post & E & (DN & DT) & _) & X & XN & XI & W & _).
    apply in_map_iff in S as (gs & <- & S). cbn [suite_elem xs_name xs_items] in *.
    apply in_map_iff in SI as (gg & Q & G). injection Q as <-. apply filter_In in G as [G P].
    assert (In d (xt_dicts t)) as DI by (rewrite E; apply in_elt). cbn [t generate_table xt_dicts In] in DI.
    destruct DI as [<-|[<-|DI]]; [now destruct NH|now destruct NA|].
    apply dict_in_suites in DI as (s' & g' & S' & G' & _ & VS & NM); auto.
    rewrite NM in DN. apply app_inv_tail in DN.
    destruct (nodup_group (ga_suites a) ND s' g' gs gg S' G' S G DN) as (-> & ->).
    rewrite VS in X. exists gs, gg, x, i. auto 10.
  - intros (s & g & x & i & S & SN & G & P & X & XN & XI & W). apply V. exists (full_name s g).
    assert (exists d, call_list_of t (full_name s g) d) as (d & C).
    { apply first_exists with (x := mkXDict (full_name s g ++ L "_call_list") (L "group_call_list") (Some (gs_name s)) (gg_call g)).
      - intros y. destruct (str_eq_dec (xd_name y) (full_name s g ++ L "_call_list")); [|tauto].
        destruct (str_eq_dec (xd_type y) (L "group_call_list")); tauto.
      - cbn [t generate_table xt_dicts]. right. right. apply in_flat_map. exists s. split; auto.
        unfold suite_dicts. right. apply in_flat_map. exists g. split; auto. unfold group_dicts. right. apply in_or_app. left.
        destruct (gg_call g); [easy|]. now left.
      - auto. }
    exists d, x, i. repeat split; auto; try discriminate.
    + exists (suite_elem s). split; [now apply in_map|]. split; [exact SN|]. cbn [suite_elem xs_items].
      apply in_map_iff. exists g. split; auto. now apply filter_In.
    + destruct C as (pre & post & E & (DN & DT) & _).
      assert (In d (xt_dicts t)) as DI by (rewrite E; apply in_elt). cbn [t generate_table xt_dicts In] in DI.
      destruct DI as [<-|[<-|DI]]; [now destruct NH|now destruct NA|].
      apply dict_in_suites in DI as (s' & g' & S' & G' & _ & VS & NM); auto.
      rewrite NM in DN. apply app_inv_tail in DN.
      destruct (nodup_group (ga_suites a) ND s' g' s g S' G' S G DN) as (-> & ->). now rewrite VS.
Qed.
Print Assumptions C37_generated.

(* ---- concrete tables ---- *)
Definition ex_v (n i : string) (p : bool) : xvar := mkXVar (L n) (Some (L i)) (if p then Some (L "True") else None).
Definition ex_host : xdict := mkXDict (L "hst") (L "host") None [ex_v "h1" "in" false; ex_v "h2" "in" true].
Definition ex_apid : xdict := mkXDict (L "api") (L "api") (Some (L "hst")) [].
Definition ex_suite (n par : string) (gs : list ggroup) : gsuite := mkGS (L n) (Some (L par)) [ex_v "loc" "out" true] gs.
Definition ex_group (n : string) (vars : list xvar) : ggroup :=
  mkGG (L n) true vars [] [mkXDict (L "sch") (L "scheme") (Some (L n)) []].
Definition ex_api : gapi := mkGA ex_host ex_apid
  [ex_suite "one" "one_constituents" [ex_group "physics" [ex_v "t" "inout" false; ex_v "h2" "in" false; ex_v "q" "out" false; ex_v "loc" "in" false];
                                      ex_group "after" [ex_v "t" "in" false; ex_v "c" "in" true]];
   ex_suite "two" "two_constituents" [ex_group "physics" [ex_v "z" "in" false]]].
Example C37_ex_generated : NoDup (all_groups ex_api) /\ not_call_list (ga_host ex_api) /\ not_call_list (ga_api ex_api) /\
  forall s g e, In s (ga_suites ex_api) -> In g (gs_groups s) -> In e (gg_inner g) -> not_call_list e.
Proof.
  repeat split; try discriminate.
  - vm_compute. repeat constructor; cbn [In]; intuition discriminate.
  - cbn. intros s g e [<-|[<-|[]]] G; cbn in G; repeat (destruct G as [<-|G]; [cbn; intros [<-|[]]; discriminate|]); destruct G.
Qed.
Example C37_ex_run :
  retrieve_variable_list 5 (generate_table ex_api) (L "one") None false = Some (Ok [L "c"; L "h2"; L "loc"; L "q"; L "t"]) /\
  retrieve_variable_list 5 (generate_table ex_api) (L "one") None true = Some (Ok [L "q"; L "t"]) /\
  retrieve_variable_list 5 (generate_table ex_api) (L "one") (Some (L "input")) false = Some (Ok [L "c"; L "h2"; L "loc"; L "t"]) /\
  retrieve_variable_list 5 (generate_table ex_api) (L "one") (Some (L "output")) true = Some (Ok [L "q"; L "t"]) /\
  retrieve_variable_list 5 (generate_table ex_api) (L "one") (Some (L "host")) true = Some (Ok [L "h1"]) /\
  retrieve_variable_list 5 (generate_table ex_api) (L "one") (Some (L "hosts")) true = Some (Raise "CCPPDatatableError").
Proof. vm_compute. repeat split; reflexivity. Qed.
Example C37_ex_rank : forall d e, parent_in (generate_table ex_api) d e ->
  (fun x => length (xd_name x)) e < (fun x => match xd_parent x with Some p => S (length p) | None => 0 end) d.
Proof. intros d e (p & P & pre & post & _ & N & _). cbn beta. rewrite P, N. lia. Qed.

(* FINDING: the groups of a suite are looked up by suite_group, and two suites may share
   such a name: here suite a, group b_c and suite a_b, group c.  The variables of the
   second suite are not listed; those of the first are listed instead. *)
Theorem C37_finding_name_clash : exists a,
  gs_groups (nth 1 (ga_suites a) (mkGS [] None [] [])) = [ex_group "c" [ex_v "mine" "in" false]] /\
  gs_name (nth 1 (ga_suites a) (mkGS [] None [] [])) = L "a_b" /\
  NoDup (map gs_name (ga_suites a)) /\
  retrieve_variable_list 0 (generate_table a) (L "a_b") None false = Some (Ok [L "yours"]).
Proof.
  exists (mkGA ex_host ex_apid [ex_suite "a" "f_constituents" [ex_group "b_c" [ex_v "yours" "in" false]];
                                ex_suite "a_b" "g_constituents" [ex_group "c" [ex_v "mine" "in" false]]]).
  split; [reflexivity|]. split; [reflexivity|]. split; [|vm_compute; reflexivity].
  vm_compute. repeat constructor; cbn [In]; intuition discriminate.
Qed.
Print Assumptions C37_finding_name_clash.

(* FINDING: the dictionary of a suite has as its parent the constituent dictionary, which is
   named after the suite definition file and is not in the table.  When a suite happens to
   have that name, a query that excludes protected variables does not end. *)
Theorem C37_finding_cycle : forall n vars, exists a,
  map gs_name (ga_suites a) = [n ++ L "_constituents"] /\ map gs_parent (ga_suites a) = [Some (n ++ L "_constituents")] /\
  map (fun s => map gg_call (gs_groups s)) (ga_suites a) = [[ex_v "t" "in" false :: vars]] /\
  forall fuel, retrieve_variable_list fuel (generate_table a) (n ++ L "_constituents") None true = None.
Proof.
  intros n vars. change (list ascii) with str in n. set (s := (n ++ L "_constituents") : str).
  assert (7 <= length s) as LS by (unfold s; rewrite app_length; cbn; lia).
  set (g := mkGG (L "physics") true (ex_v "t" "in" false :: vars) [] []).
  set (gs := mkGS s (Some s) [] [g]).
  exists (mkGA ex_host ex_apid [gs]). repeat split.
  intros fuel. set (t := generate_table _).
  assert (str_eqb (L "hst") s = false) as E1 by (apply str_eqb_neq; intros X; rewrite <- X in LS; cbn in LS; lia).
  assert (str_eqb (L "api") s = false) as E2 by (apply str_eqb_neq; intros X; rewrite <- X in LS; cbn in LS; lia).
  set (sd := mkXDict s (L "suite") (Some s) []).
  set (cl := mkXDict (full_name gs g ++ L "_call_list") (L "group_call_list") (Some s) (gg_call g)).
  assert (xt_dicts t = [ex_host; ex_apid; sd; mkXDict (full_name gs g) (L "group") (Some s) []; cl]) as TD by reflexivity.
  assert (find_var_dictionary t (@Some str s) None = Some sd) as FS.
  { unfold find_var_dictionary. rewrite TD. cbn [find is_none_or xd_name ex_host ex_apid andb].
    rewrite E1, E2. cbn [andb sd xd_name]. now rewrite str_eqb_refl. }
  assert (forall fuel, is_variable_protected fuel t (L "t") (Some sd) = None) as LP.
  { induction fuel0 as [|k IH]; cbn [is_variable_protected]; auto.
    replace (protected_here (L "t") sd) with false by reflexivity.
    change (xd_parent sd) with (Some s). cbv iota. change (find_var_dictionary t (@Some str s) None) with (find_var_dictionary t (Some s) None). rewrite FS. exact IH. }
  assert (forall fuel, is_variable_protected fuel t (L "t") (Some cl) = None) as LC.
  { destruct fuel0 as [|k]; cbn [is_variable_protected]; auto.
    replace (protected_here (L "t") cl) with false by reflexivity.
    change (xd_parent cl) with (Some s). cbv iota. change (find_var_dictionary t (@Some str s) None) with (find_var_dictionary t (Some s) None). now rewrite FS. }
  unfold retrieve_variable_list. cbn [allowed_intents is_host orb]. cbv zeta.
  replace (find_var_dictionary t None (Some (L "host"))) with (Some ex_host) by (unfold find_var_dictionary; rewrite TD; reflexivity).
  destruct (host_scan fuel t true false ex_host (xd_vars ex_host) ([], [])) as [(vs, ev)|] eqn:H; auto.
  destruct fuel as [|k]; [discriminate|].
  assert (ev = [L "h2"]) as ->.
  { cbn [ex_host xd_vars host_scan exclude is_variable_protected] in H.
    replace (protected_here (xv_name (ex_v "h1" "in" false)) ex_host) with false in H by (vm_compute; reflexivity).
    replace (protected_here (xv_name (ex_v "h2" "in" true)) ex_host) with true in H by (vm_compute; reflexivity).
    change (xd_parent ex_host) with (@None str) in H. cbn [is_variable_protected] in H. destruct k; cbn in H; now injection H as <- <-. }
  assert (suite_group_names t s = [full_name gs g]) as ->.
  { unfold suite_group_names. cbn [t generate_table xt_suites ga_suites map flat_map suite_elem xs_name gs_name gs xs_items gs_groups].
    rewrite str_eqb_refl. reflexivity. }
  cbn [groups_scan].
  assert (find_var_dictionary t (Some (full_name gs g ++ L "_call_list")) (Some (L "group_call_list")) = Some cl) as ->.
  { unfold find_var_dictionary. rewrite TD. cbn [find].
    replace (is_none_or (Some (L "group_call_list")) (xd_type ex_host)) with false by reflexivity.
    replace (is_none_or (Some (L "group_call_list")) (xd_type ex_apid)) with false by reflexivity.
    replace (is_none_or (Some (L "group_call_list")) (xd_type sd)) with false by reflexivity.
    replace (is_none_or (Some (L "group_call_list")) (xd_type (mkXDict (full_name gs g) (L "group") (Some s) []))) with false by reflexivity.
    rewrite !andb_false_r. cbn [is_none_or cl xd_name xd_type]. now rewrite !str_eqb_refl. }
  replace (xd_vars cl) with (ex_v "t" "in" false :: vars) by reflexivity. cbn [group_scan].
  replace (mem (xv_name (ex_v "t" "in" false)) [L "h2"]) with false by (vm_compute; reflexivity).
  change (xv_name (ex_v "t" "in" false)) with (L "t"). now rewrite LC.
Qed.
Print Assumptions C37_finding_cycle.

(* ---- C38 ---- *)
Lemma spaces_in s : forall i p, In p (spaces_from i s) <-> i <= p /\ nth_error s (p - i) = Some " "%char.
Proof.
  induction s as [|c s IH]; intros i p; cbn [spaces_from].
  - split; [easy|]. intros [_ H]. destruct (p - i); discriminate.
  - assert (In p (spaces_from (S i) s) <-> i < p /\ nth_error (c :: s) (p - i) = Some " "%char) as X.
    { rewrite IH. split; intros [A B]; split; auto; replace (p - i) with (S (p - S i)) in * by lia; auto. }
    destruct (Ascii.eqb_spec c " ") as [->|N].
    + cbn [In]. rewrite X. split.
      * intros [<-|[A B]]; [rewrite Nat.sub_diag; auto|]. split; auto. lia.
      * intros [A B]. destruct (Nat.eq_dec i p); auto. right. split; auto. lia.
    + rewrite X. split; intros [A B]; split; auto; try lia. destruct (Nat.eq_dec i p) as [->|E]; [|lia].
      rewrite Nat.sub_diag in B. cbn in B. congruence.
Qed.
Lemma spaces_sorted s : forall i, StronglySorted lt (spaces_from i s).
Proof.
  induction s as [|c s IH]; intros i; cbn [spaces_from]; [constructor|].
  destruct (Ascii.eqb c " "); auto. constructor; auto. apply Forall_forall. intros x X. apply spaces_in in X. lia.
Qed.
Lemma last_good_some w l p : StronglySorted lt l -> last_good w l = Some p ->
  In p l /\ p <= w /\ forall x, In x l -> p < x -> w < x.
Proof.
  unfold last_good. intros S H. destruct (rev (List.filter (fun x => x <=? w) l)) as [|y r] eqn:R; [discriminate|].
  injection H as ->. assert (List.filter (fun x => x <=? w) l = rev r ++ [p]) as E by (rewrite <- (rev_involutive (List.filter _ l)), R; reflexivity).
  assert (In p (List.filter (fun x => x <=? w) l)) as I by (rewrite E; apply in_elt).
  apply filter_In in I as [I Q]. apply Nat.leb_le in Q. repeat split; auto.
  intros x X Y. destruct (Nat.leb_spec x w) as [Z|Z]; auto.
  assert (In x (List.filter (fun x => x <=? w) l)) as J by (apply filter_In; split; auto; now apply Nat.leb_le).
  assert (StronglySorted lt (List.filter (fun x => x <=? w) l)) as SF.
  { clear -S. induction S as [|a l S IH F]; cbn [List.filter]; [constructor|]. destruct (a <=? w); auto. constructor; auto.
    apply Forall_forall. intros x X. apply filter_In in X as [X _]. rewrite Forall_forall in F. auto. }
  rewrite E in J, SF. apply in_app_or in J as [J|[<-|[]]]; [|lia]. exfalso.
  clear -J SF Y. induction (rev r) as [|a q IH]; [easy|]. cbn [app] in SF. inversion SF as [|? ? S F]; subst.
  destruct J as [->|J]; [|auto]. rewrite Forall_forall in F. specialize (F p). rewrite in_app_iff in F. cbn [In] in F. specialize (F (or_intror (or_introl eq_refl))). lia.
Qed.
Lemma last_good_none w l : last_good w l = None -> forall x, In x l -> w < x.
Proof.
  unfold last_good. intros H x X. destruct (rev (List.filter (fun x => x <=? w) l)) as [|y r] eqn:R; [|discriminate].
  destruct (Nat.leb_spec x w) as [Z|Z]; auto. exfalso.
  assert (In x (rev (List.filter (fun x => x <=? w) l))) as J by (apply in_rev; rewrite rev_involutive; apply filter_In; split; auto; now apply Nat.leb_le).
  rewrite R in J. destruct J.
Qed.
Lemma nth_cut (s : str) k c : nth_error s k = Some c -> s = firstn k s ++ c :: skipn (S k) s.
Proof.
  revert k. induction s as [|a s IH]; intros [|k] H; try discriminate.
  - cbn in H. injection H as ->. reflexivity.
  - cbn [nth_error] in H. cbn [firstn app skipn]. f_equal. now apply IH.
Qed.
(* the cut of a stripped line at a space *)
Lemma cut_line s k : strip s = s -> nth_error s k = Some " "%char ->
  exists g', blank g' /\ firstn k s <> [] /\ skipn (S k) s = g' ++ strip (skipn (S k) s) /\
    exists c q', strip (skipn (S k) s) = c :: q' /\ is_space c = false.
Proof.
  intros ST H. pose proof (nth_cut s k _ H) as E.
  destruct (FWProofs.strip_parts s ST) as [->|[(c & t & E1 & C) (u & d & E2 & D)]]; [destruct k; discriminate|].
  destruct (FWProofs.lstrip_split (skipn (S k) s)) as (b & B & EB).
  assert (skipn (S k) s <> []) as NE.
  { intros Z. rewrite Z in E. rewrite E2 in E. assert (d = " "%char) as -> by (apply (app_inj_tail u (firstn k (u ++ [d])) d " "%char E)). discriminate. }
  assert (exists v, skipn (S k) s = v ++ [d]) as (v & EV).
  { destruct (exists_last NE) as (v & d' & EV). exists v. rewrite EV. f_equal. f_equal.
    rewrite EV, E2 in E. change (firstn k (u ++ [d]) ++ " "%char :: v ++ [d']) with (firstn k (u ++ [d]) ++ (" "%char :: v) ++ [d']) in E.
    rewrite app_assoc in E. apply app_inj_tail in E as [_ ->]. reflexivity. }
  assert (lstrip (skipn (S k) s) <> []) as NL.
  { intros Z. rewrite Z, app_nil_r in EB. assert (is_space d = true) as Y; [|congruence]. apply B. rewrite <- EB, EV. apply in_elt. }
  assert (strip (skipn (S k) s) = lstrip (skipn (S k) s)) as SL.
  { unfold strip. destruct (exists_last NL) as (y & e & EY). rewrite EY. apply FWProofs.rstrip_nonblank.
    rewrite EY, app_assoc in EB. rewrite EV in EB. apply app_inj_tail in EB as [_ ->]. exact D. }
  exists b. split; [exact B|]. split.
  - intros Z. rewrite Z in E. cbn [app] in E. rewrite E1 in E. injection E as Q _. subst c. discriminate.
  - rewrite SL. split; [exact EB|]. destruct (lstrip (skipn (S k) s)) as [|a q] eqn:Q; [easy|]. exists a, q. split; auto.
    now apply FWProofs.lstrip_head with (skipn (S k) s) q.
Qed.
Lemma first_word_next s : first_word s = s \/ nth_error s (length (first_word s)) = Some " "%char.
Proof.
  unfold first_word. induction s as [|c s IH]; [auto|]. cbn [takewhile]. destruct (Ascii.eqb_spec c " ") as [->|N]; cbn [negb].
  - right. reflexivity.
  - cbn [length nth_error]. destruct IH as [IH|IH]; auto. left. now rewrite IH.
Qed.
Definition pieces_text (istr : str) (indent next : nat) (p : str) (ps : list str) : str :=
  (indent_str istr indent ++ p ++ [nl]) ++ List.concat (map (fun q => indent_str istr next ++ q ++ [nl]) ps).
Lemma no_space_spaces s i : spaces_from i s = [] -> ~ In " "%char s.
Proof.
  intros H I. apply In_nth_error in I as (n & N). assert (In (i + n) (spaces_from i s)) as X.
  { apply spaces_in. split; [lia|]. now replace (i + n - i) with n by lia. }
  rewrite H in X. destruct X.
Qed.
Lemma layout_main istr w : forall fuel line indent incr, length line <= fuel ->
  let next := if incr : bool then indent + 2 else indent in
  exists p ps, broken w (length (indent_str istr indent)) (length (indent_str istr next)) (strip line) (p :: ps) /\
    format_line fuel istr line indent w incr = pieces_text istr indent next p ps.
Proof.
  induction fuel as [|k IH]; intros line indent incr LE next.
  - destruct line; [|cbn in LE; lia]. exists [], []. split; [apply whole; right; right; easy|].
    unfold pieces_text. cbn [map List.concat]. rewrite app_nil_r. cbn [format_line].
    replace (strip []) with (@nil ascii) by reflexivity. cbn [spaces_from]. unfold last_good. cbn [List.filter rev].
    now destruct ((w =? 0) || _).
  - cbn [format_line]. fold next. set (ind := indent_str istr indent). set (s := strip line).
    destruct ((w =? 0) || (length s + length ind <=? w)) eqn:FIT.
    { exists s, []. split; [|unfold pieces_text; cbn [map List.concat]; now rewrite app_nil_r].
      apply whole. apply orb_true_iff in FIT as [F|F]; [apply Nat.eqb_eq in F; auto|apply Nat.leb_le in F; right; left; lia]. }
    apply orb_false_iff in FIT as [W0 WF]. apply Nat.eqb_neq in W0. apply Nat.leb_gt in WF.
    assert (strip s = s) as SS by apply CheckProofs.strip_idem.
    assert (length s <= length line) as SL by apply FWKeep.strip_len.
    assert (forall j, nth_error s j = Some " "%char ->
      (length ind + j <= w \/ ~ In " "%char (firstn j s)) ->
      (forall x, nth_error s x = Some " "%char -> j < x -> w < length ind + x) ->
      exists p ps, broken w (length ind) (length (indent_str istr next)) s (p :: ps) /\
        ind ++ firstn j s ++ [nl] ++ format_line k istr (skipn (S j) s) next w false = pieces_text istr indent next p ps) as STEP.
    { intros j NJ OKP FAR. destruct (cut_line s j SS NJ) as (g' & B & NE & EQ & c & q' & Q & C).
      assert (length (skipn (S j) s) <= k) as LK.
      { rewrite skipn_length. assert (j < length s) by (apply nth_error_Some; congruence). lia. }
      destruct (IH (skipn (S j) s) next false LK) as (p & ps & BR & FM). cbv zeta in BR, FM.
      set (q := strip (skipn (S j) s)) in *.
      assert (s = firstn j s ++ (" "%char :: g') ++ q) as ES.
      { rewrite (nth_cut s j _ NJ) at 1. cbn [app]. do 2 f_equal. exact EQ. }
      assert (length (firstn j s) = j) as LJ.
      { apply firstn_length_le. assert (j < length s) by (apply nth_error_Some; congruence). lia. }
      exists (firstn j s), (p :: ps). split.
      - rewrite ES at 1. apply split; auto; try lia.
        + intros x [<-|X]; auto.
        + eauto.
        + eauto.
        + rewrite LJ. exact OKP.
        + destruct (first_word_next q) as [FW|FW].
          * rewrite FW, <- ES. lia.
          * set (n := length (firstn j s ++ (" "%char :: g') ++ first_word q)).
            assert (nth_error s n = Some " "%char) as X.
            { rewrite ES. unfold n. rewrite app_assoc, (app_assoc (firstn j s)), app_length.
              rewrite nth_error_app2 by lia. now replace (_ + _ - _) with (length (first_word q)) by lia. }
            apply FAR; auto. unfold n. rewrite app_length, LJ. cbn [app length]. lia.
      - rewrite FM. unfold pieces_text. cbn [map List.concat]. unfold ind. now rewrite <- !app_assoc. }
    destruct (last_good w (spaces_from (length ind) s)) as [p|] eqn:LG.
    + apply last_good_some in LG as (I & PW & FAR); [|apply spaces_sorted].
      apply spaces_in in I as [PI NP].
      apply STEP; auto; [left; lia|].
      intros x X XL. apply FAR; [|lia]. apply spaces_in. split; [lia|]. now replace (length ind + x - length ind) with x by lia.
    + pose proof (last_good_none _ _ LG) as FAR. destruct (spaces_from (length ind) s) as [|p r] eqn:SP.
      * exists s, []. split; [|unfold pieces_text; cbn [map List.concat]; now rewrite app_nil_r].
        apply whole. right. right. now apply no_space_spaces with (length ind).
      * assert (In p (spaces_from (length ind) s)) as I by (rewrite SP; now left).
        apply spaces_in in I as [PI NP]. apply STEP; auto.
        -- right. intros J. apply In_nth_error in J as (n & N).
           assert (n < p - length ind) as NB.
           { assert (n < length (firstn (p - length ind) s)) as Z by (apply nth_error_Some; congruence). rewrite firstn_length in Z. lia. }
           assert (In (length ind + n) (p :: r)) as Z.
           { rewrite <- SP. apply spaces_in. split; [lia|]. replace (length ind + n - length ind) with n by lia.
             rewrite <- (firstn_skipn (p - length ind) s). rewrite nth_error_app1; auto. rewrite firstn_length. apply Nat.min_glb_lt; auto.
             apply Nat.lt_trans with (p - length ind); auto. apply nth_error_Some. congruence. }
           pose proof (spaces_sorted s (length ind)) as SO. rewrite SP in SO. inversion SO as [|? ? _ FA]; subst.
           destruct Z as [Z|Z]; [lia|]. rewrite Forall_forall in FA. specialize (FA _ Z). lia.
        -- intros x X XL. apply FAR. rewrite <- SP. apply spaces_in. split; [lia|]. now replace (length ind + x - length ind) with x by lia.
Qed.
Theorem C38_layout : forall istr line indent w incr,
  let next := if incr : bool then indent + 2 else indent in
  exists p ps, broken w (length (List.concat (List.repeat istr indent))) (length (List.concat (List.repeat istr next))) (strip line) (p :: ps) /\
    format_line (length line) istr line indent w incr =
      (List.concat (List.repeat istr indent) ++ p ++ [nl]) ++ List.concat (map (fun q => List.concat (List.repeat istr next) ++ q ++ [nl]) ps).
Proof. intros. now apply layout_main. Qed.
Print Assumptions C38_layout.

Lemma fuel_main istr w : forall fuel fuel' line indent incr, length line <= fuel -> length line <= fuel' ->
  format_line fuel istr line indent w incr = format_line fuel' istr line indent w incr.
Proof.
  induction fuel as [|k IH]; intros fuel' line indent incr A B.
  - destruct line; [|cbn in A; lia]. destruct fuel' as [|k']; auto.
  - destruct fuel' as [|k'].
    + destruct line; [|cbn in B; lia]. reflexivity.
    + cbn [format_line]. destruct ((w =? 0) || _); auto. destruct (match last_good _ _ with Some _ => _ | None => _ end) as [j|] eqn:J; auto.
      do 3 f_equal. assert (length (strip line) <= length line) as SL by apply FWKeep.strip_len.
      assert (length (skipn (S j) (strip line)) <= pred (length line)) as X.
      { rewrite skipn_length. lia. }
      apply IH; lia.
Qed.
Theorem C38_fuel : forall istr line indent w incr fuel, length line <= fuel ->
  format_line fuel istr line indent w incr = format_line (length line) istr line indent w incr.
Proof. intros. now apply fuel_main. Qed.
Print Assumptions C38_fuel.

Lemma nonblank_app a b : nonblank (a ++ b) = nonblank a ++ nonblank b.
Proof. apply filter_app. Qed.
Lemma nonblank_blank g : blank g -> nonblank g = [].
Proof.
  intros B. unfold nonblank. induction g as [|c g IH]; auto. cbn [List.filter]. rewrite (B c (or_introl eq_refl)). apply IH.
  intros x X. apply B. now right.
Qed.
Lemma nonblank_strip s : nonblank (strip s) = nonblank s.
Proof.
  destruct (FWProofs.lstrip_split s) as (a & A & E). destruct (FWKeep.rstrip_split (lstrip s)) as (b & B & F).
  rewrite E at 2. rewrite F. rewrite !nonblank_app, (nonblank_blank a), (nonblank_blank b) by assumption. now rewrite app_nil_r.
Qed.
Lemma broken_content w i j s ps : broken w i j s ps -> nonblank (List.concat ps) = nonblank s.
Proof.
  induction 1 as [i j s H|i j p g q ps W P B G Q O F BR IH]; cbn [List.concat].
  - now rewrite app_nil_r.
  - now rewrite !nonblank_app, IH, (nonblank_blank g B).
Qed.
Theorem C38_content : forall istr line indent w incr, blank istr ->
  nonblank (format_line (length line) istr line indent w incr) = nonblank line.
Proof.
  intros istr line indent w incr B. destruct (C38_layout istr line indent w incr) as (p & ps & BR & ->).
  assert (forall n, nonblank (List.concat (List.repeat istr n)) = []) as NI.
  { intros n. apply nonblank_blank. induction n as [|n IH]; cbn [List.repeat List.concat]; [intros c []|].
    intros c C. apply in_app_or in C as [C|C]; auto. }
  apply broken_content in BR. rewrite nonblank_strip in BR. rewrite <- BR. cbn [List.concat]. rewrite !nonblank_app, NI.
  replace (nonblank [nl]) with (@nil ascii) by reflexivity. rewrite app_nil_r. cbn [app]. f_equal. clear BR p.
  induction ps as [|q ps IH]; auto. cbn [map List.concat]. rewrite !nonblank_app, NI, IH.
  replace (nonblank [nl]) with (@nil ascii) by reflexivity. now rewrite app_nil_r.
Qed.
Print Assumptions C38_content.

Lemma broken_width w i j s ps : broken w i j s ps ->
  match ps with
  | [] => False
  | p :: r => (w = 0 \/ i + length p <= w \/ ~ In " "%char p) /\
              Forall (fun q => w = 0 \/ j + length q <= w \/ ~ In " "%char q) r
  end.
Proof.
  induction 1 as [i j s H|i j p g q ps W P B G Q O F BR IH].
  - split; auto.
  - destruct ps as [|p' r]; [easy|]. destruct IH as [A R]. split; [tauto|]. constructor; auto.
Qed.
(* a line longer than asked for has no space after its indentation *)
Theorem C38_width : forall istr line indent w incr,
  let next := if incr : bool then indent + 2 else indent in
  exists p ps, format_line (length line) istr line indent w incr =
      (List.concat (List.repeat istr indent) ++ p ++ [nl]) ++ List.concat (map (fun q => List.concat (List.repeat istr next) ++ q ++ [nl]) ps) /\
    (0 < w -> length (List.concat (List.repeat istr indent) ++ p) <= w \/ ~ In " "%char p) /\
    (0 < w -> forall q, In q ps -> length (List.concat (List.repeat istr next) ++ q) <= w \/ ~ In " "%char q).
Proof.
  intros istr line indent w incr next. destruct (C38_layout istr line indent w incr) as (p & ps & BR & E).
  exists p, ps. split; [exact E|]. apply broken_width in BR as [A R]. split.
  - intros W. rewrite app_length. destruct A as [A|A]; [lia|exact A].
  - intros W q Q. rewrite Forall_forall in R. rewrite app_length. destruct (R q Q) as [X|X]; [lia|exact X].
Qed.
Print Assumptions C38_width.

(* the doctests of _format_line, and the empty line *)
Example C38_ex :
  let line := L "This is a very long string that should be wrapped hopefully" in
  format_line 59 (L "  ") line 1 50 true = L "  This is a very long string that should be" ++ [nl] ++ L "      wrapped hopefully" ++ [nl] /\
  format_line 59 (L "  ") line 1 50 false = L "  This is a very long string that should be" ++ [nl] ++ L "  wrapped hopefully" ++ [nl] /\
  format_line 59 (L "  ") line 0 50 true = L "This is a very long string that should be wrapped" ++ [nl] ++ L "    hopefully" ++ [nl] /\
  format_line 10 (L "  ") (L "short line") 0 2 false = L "short" ++ [nl] ++ L "line" ++ [nl] /\
  format_line 59 (L "  ") line 1 0 true = L "  " ++ line ++ [nl].
Proof. vm_compute. repeat split; reflexivity. Qed.

(* FINDING: the code looks as if it kept quoted text together (in_squote, in_dquote), but a
   quoted space is a break point like any other. *)
Theorem C38_finding_quotes : forall q, q = "'"%char \/ q = """"%char ->
  format_line 20 (L "  ") (L "name=" ++ [q] ++ L "a long name" ++ [q]) 0 10 false =
  L "name=" ++ [q] ++ L "a" ++ [nl] ++ L "long name" ++ [q] ++ [nl].
Proof. intros q [->| ->]; vm_compute; reflexivity. Qed.
Print Assumptions C38_finding_quotes.
