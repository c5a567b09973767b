From Verif Require Import PyStr PyNum Base CompatModel ReqModel ReqProofs DictModel DictSpec DictProofs ResModel ResSpec.
Open Scope nat_scope.
Open Scope list_scope.

(* ---- lists ---- *)
Lemma nth_upd {A} (l : list A) : forall i (x : A) j, i < length l -> nth_error (upd i x l) j = if j =? i then Some x else nth_error l j.
Proof.
  induction l as [|y l IH]; intros i x j H; cbn [length] in H; [lia|]. destruct i as [|i], j as [|j]; cbn [upd nth_error Nat.eqb]; auto.
  apply IH. lia.
Qed.
Lemma upd_length {A} (l : list A) : forall i (x : A), length (upd i x l) = length l.
Proof. induction l as [|y l IH]; intros [|i] x; cbn; auto. Qed.
Lemma has_true {A} k (l : list (str * A)) : has k l = true <-> get k l <> None.
Proof. unfold has. destruct (get k l); split; congruence. Qed.
Lemma has_false {A} k (l : list (str * A)) : has k l = false <-> get k l = None.
Proof. unfold has. destruct (get k l); split; congruence. Qed.
Definition join_i (a b : intent) : intent := if intent_eqb (Some a) (Some b) then a else InOut_.
Lemma join_merged l i j : merged_intent l i -> merged_intent (l ++ [j]) (join_i i j).
Proof.
  intros [N H]. split; [now destruct l|]. unfold join_i.
  destruct H as [H|(-> & j1 & j2 & A & B & C)].
  - destruct (intent_eqb (Some i) (Some j)) eqn:E.
    + left. intros k K. apply in_app_iff in K as [K|[<-|[]]]; auto. destruct i, j; cbn in E; congruence.
    + right. split; auto. exists i, j. repeat split.
      * apply in_app_iff. left. destruct l as [|x l]; [congruence|]. rewrite <- (H x); now left.
      * apply in_app_iff. right. now left.
      * intros ->. destruct j; discriminate.
  - right. split; [now destruct j|]. exists j1, j2. rewrite !in_app_iff. auto.
Qed.
Lemma join_again i j : join_i (join_i i j) j = join_i i j.
Proof. now destruct i, j. Qed.

(* ---- add_variable ---- *)
Lemma adjust_join c v i : adjust_intent c v = Ok i -> forall k, x_intent c = Some k ->
  x_intent i = Some (join_i k (match x_intent v with Some j => j | None => In_ end)) /\ same_but_intent c i.
Proof.
  intros H k K. split; [|now destruct (adjust_same _ _ _ H)].
  unfold adjust_intent in H. match type of H with (if ?b then _ else _) = _ => destruct b; [discriminate|] end.
  rewrite K in H. unfold join_i. match type of H with Ok (if ?b then _ else _) = _ => destruct b eqn:E end; injection H as <-; cbn [x_intent set_intent]; auto.
Qed.
Lemma check_ok compat d v a d1 u : check_existing compat d v a = (d1, Ok u) -> x_std v <> const_one ->
  match get (x_std v) (d_vars d) with
  | None => d1 = d
  | Some c => compat c v = true /\
      ((d1 = d /\ forall i j, x_intent c = Some i -> x_intent v = Some j -> join_i i j = i) \/
       a = true /\ exists c', adjust_intent c v = Ok c' /\ d1 = mkD (set (x_std v) c' (d_vars d)) (d_locals d))
  end.
Proof.
  intros H N. unfold check_existing in H. rewrite (find_present _ _ N) in H.
  destruct (get (x_std v) (d_vars d)) as [c|]; [|now injection H as <-].
  destruct (compat c v); [split; auto|discriminate].
  destruct (intent_eqb (x_intent c) (x_intent v)) eqn:E.
  - injection H as <-. left. split; auto. intros i j I J. rewrite I, J in E. unfold join_i. now rewrite E.
  - destruct a; [|discriminate].
    match type of H with (if ?b then _ else _) = _ => destruct b eqn:B end.
    + destruct (adjust_intent c v) as [c'|]; [|discriminate]. injection H as <-. right. split; auto. exists c'. auto.
    + injection H as <-. left. split; auto. intros i j I J. rewrite I, J in *. destruct i, j; cbn in *; congruence.
Qed.
Lemma resolve_ok d v e g v' : resolve_local d v e g = Ok v' -> x_std v' = x_std v /\ x_intent v' = x_intent v /\ x_prot v' = x_prot v /\
  (x_local v' = x_local v /\ (get (lower (x_local v)) (d_locals d) = None \/ g = false /\ e = true) \/
   g = true /\ get (lower (x_local v)) (d_locals d) <> None).
Proof.
  intros H. unfold resolve_local in H. apply bind_ok in H as (lv & F & H). apply bind_ok in H as (v1 & G & H).
  apply bind_ok in H as (z & _ & H). injection H as <-. unfold find_local_name in F.
  destruct (get (lower (x_local v)) (d_locals d)) as [s|] eqn:E.
  - destruct (find_variable d s); [|discriminate]. injection F as <-. destruct g.
    + destruct (new_name _ _ _ _); [|discriminate]. injection G as <-. cbn. repeat split; auto. right. split; auto. congruence.
    + destruct e; [|discriminate]. injection G as <-. repeat split; auto.
  - injection F as <-. injection G as <-. repeat split; auto.
Qed.
Lemma add_ok compat d v e g a d' u : add_variable compat d v e g a = (d', Ok u) -> x_std v <> const_one -> keys_ok d ->
  keys_ok d' /\ (forall t, t <> x_std v -> get t (d_vars d') = get t (d_vars d)) /\
  match get (x_std v) (d_vars d) with
  | None => exists w, get (x_std v) (d_vars d') = Some w /\ d_vars d' = d_vars d ++ [(x_std v, w)] /\ x_std w = x_std v /\ x_intent w = x_intent v /\ x_prot w = x_prot v /\
            (x_local w = x_local v /\ (get (lower (x_local v)) (d_locals d) = None \/ g = false /\ e = true) \/ g = true /\ get (lower (x_local v)) (d_locals d) <> None)
  | Some c => e = true /\ compat c v = true /\ exists w, get (x_std v) (d_vars d') = Some w /\ same_but_intent c w /\ map fst (d_vars d') = map fst (d_vars d) /\
       forall i j, x_intent c = Some i -> x_intent v = Some j -> x_intent w = Some (join_i i j)
  end.
Proof.
  intros H N K.
  pose proof (keys_step compat d (Add v e g a) K) as KS. cbn [step] in KS. rewrite H in KS. cbn [fst] in KS.
  split; [exact KS|].
  unfold add_variable in H. cbv zeta in H.
  match type of H with (if ?b then _ else _) = _ => destruct b eqn:B; [discriminate|] end.
  destruct (check_existing compat d v a) as [d1 [u1|]] eqn:CE; [|discriminate]. apply check_ok in CE; auto.
  destruct (resolve_local d1 v e g) as [v'|] eqn:R; [|discriminate]. injection H as <- _.
  apply resolve_ok in R as (R1 & R2 & R3 & R4). cbn [d_vars].
  destruct (get (x_std v) (d_vars d)) as [c|] eqn:G.
  - destruct e; [|discriminate]. destruct CE as (CC & [(-> & J)|(-> & c' & A & ->)]); cbn [d_vars].
    + rewrite G. split; auto. split; auto. split; auto. exists c. rewrite G. repeat split; auto.
      intros i j I J'. now rewrite (J i j I J').
    + rewrite get_set, str_eqb_refl. split.
      * intros t T. rewrite get_set. apply str_eqb_neq in T. now rewrite T.
      * split; auto. split; auto. exists c'. rewrite get_set, str_eqb_refl. split; auto. destruct (adjust_same _ _ _ A) as [SB _]. split; auto. split.
        -- apply set_keys. apply get_in in G. change (x_std v) with (fst (x_std v, c)). now apply in_map.
        -- intros i j I J. destruct (adjust_join _ _ _ A _ I) as [JJ _]. now rewrite J in JJ.
  - subst d1. rewrite G. split.
    + intros t T. rewrite get_app. apply str_eqb_neq in T. rewrite T. now destruct (get t (d_vars d)).
    + exists v'. rewrite get_app, G, str_eqb_refl. repeat split; auto.
Qed.

(* ---- one argument ---- *)
Section Step.
Context (compat : var -> var -> bool) (host : list hvar).
Notation hfind := (host_find host).
Lemma host_find_std s h : hfind s = Some h -> h_std h = s /\ In h host.
Proof. intros H. apply find_some in H as [H1 H2]. apply str_eqb_eq in H2. auto. Qed.
Lemma host_find_none s : hfind s = None <-> ~ provided host s.
Proof.
  split.
  - intros H (h & I & E). apply (find_none _ _ H) in I. rewrite E, str_eqb_refl in I. discriminate.
  - intros H. destruct (hfind s) as [h|] eqn:E; auto. exfalso. apply H. exists h. apply host_find_std in E. tauto.
Qed.
Lemma host_find_some s : provided host s <-> exists h, hfind s = Some h.
Proof.
  split.
  - intros H. destruct (hfind s) as [h|] eqn:E; eauto. apply host_find_none in E. contradiction.
  - intros (h & H). exists h. apply host_find_std in H. tauto.
Qed.

Definition call_ext (d d' : dict) : Prop :=
  keys_ok d' /\ (forall t, mem t loop_names = false -> get t (d_vars d') = get t (d_vars d)) /\
  (forall t, get t (d_vars d) <> None -> get t (d_vars d') <> None) /\
  (forall t, get t (d_vars d') <> None -> get t (d_vars d) <> None \/ hfind t <> None /\ t <> const_one).
Lemma call_ext_refl d : keys_ok d -> call_ext d d.
Proof. intros K. repeat split; auto; apply K. Qed.
Lemma call_ext_trans d e f : call_ext d e -> call_ext e f -> call_ext d f.
Proof.
  intros (A1 & A2 & A3 & A4) (B1 & B2 & B3 & B4). split; [auto|]. split; [|split].
  - intros t T. now rewrite B2, A2.
  - auto.
  - intros t T. apply B4 in T as [T|T]; auto.
Qed.
Definition with_call (g : gst) (d : dict) (o : list (str * bool)) : gst :=
  mkG (g_run g) (g_dict g) d (g_lopt g) o (g_loops g) (g_schemes g).
Record wf (x : st) : Prop := {
  wf_g : forall s i, get s (s_gvars x) = Some i -> hfind s = None;
  wf_s : forall s, mem s loop_names = true -> get s (d_vars (s_suite x)) = None;
  wf_l : forall s, get s (d_vars (g_dict (s_cur x))) <> None -> hfind s = None;
  wf_h : forall s, get s (d_vars (s_suite x)) <> None -> hfind s = None;
  wf_p : forall i g, nth_error (s_past x) i = Some g -> keys_ok (g_dict g);
  wf_d : keys_ok (g_dict (s_cur x));
  wf_c : keys_ok (g_call (s_cur x)) }.

Lemma loop_required s names p : get s loop_substs = Some (names, p) -> forall n, In n names -> n = const_one \/ mem n loop_names = true.
Proof.
  unfold loop_substs. cbn [get]. intros H n I.
  repeat match type of H with (if ?b then _ else _) = _ => destruct b end; try discriminate; injection H as <- <-; cbn [In] in I;
    repeat match goal with H : _ \/ _ |- _ => destruct H | H : False |- _ => destruct H end; subst; auto.
Qed.

Definition subst_var (x : st) (v : var) : Prop :=
  v = const_var \/
  (x_std v <> const_one /\ mem (x_std v) loop_names = true /\
   (get (x_std v) (d_vars (g_dict (s_cur x))) = Some v \/ get (x_std v) (d_vars (g_dict (s_cur x))) = None /\ exists h, hfind (x_std v) = Some h)).
Lemma has_subst_ok x names : wf x -> (forall n, In n names -> n = const_one \/ mem n loop_names = true) ->
  forall x' r, has_subst compat host x names = Ok (x', r) -> x' = x /\ forall l, r = Some l -> Forall (subst_var x) l /\
    forall n, In n names -> n = const_one \/ get n (d_vars (g_dict (s_cur x))) <> None \/ hfind n <> None.
Proof.
  intros W. induction names as [|n names IH]; intros LN x' r H; cbn [has_subst] in H.
  - injection H as <- <-. split; auto. intros l [= <-]. split; [constructor|intros n []].
  - apply bind_ok in H as ([x1 f] & F & H). unfold find_up in F. destruct (str_eqb n const_one) eqn:C.
    + injection F as <- <-. apply bind_ok in H as ([x2 r2] & R & H). apply IH in R as [-> R]; [|intros; apply LN; now right]. injection H as <- <-.
      split; auto. intros l Q. destruct r2 as [l2|]; [|discriminate]. injection Q as <-. destruct (R _ eq_refl) as [R1 R2]. split; [constructor; auto; now left|]. apply str_eqb_eq in C. intros m [<-|I]; auto.
    + assert (M : mem n loop_names = true). { destruct (LN n (or_introl eq_refl)) as [->|]; auto; now rewrite str_eqb_refl in C. }
      apply str_eqb_neq in C. assert (LN' : forall n0, In n0 names -> n0 = const_one \/ mem n0 loop_names = true) by (intros; apply LN; now right).
      destruct (get n (d_vars (g_dict (s_cur x)))) as [v|] eqn:G.
      * injection F as <- <-. apply bind_ok in H as ([x2 r2] & R & H). apply IH in R as [-> R]; auto. injection H as <- <-.
        split; auto. intros l Q. destruct r2 as [l2|]; [|discriminate]. injection Q as <-. destruct (R _ eq_refl) as [R1 R2]. split; [|intros m [<-|I]; [right; left; congruence|auto]]. constructor; auto. right. cbn [src_var].
        pose proof (get_in _ _ _ G) as I. apply (proj2 (wf_d x W)) in I. rewrite I. auto.
      * unfold suite_find in F. rewrite (proj2 (str_eqb_neq _ _) C), (wf_s x W n M) in F. destruct (hfind n) as [h|] eqn:HF.
        -- injection F as <- <-. apply bind_ok in H as ([x2 r2] & R & H). apply IH in R as [-> R]; auto. injection H as <- <-.
           split; auto. intros l Q. destruct r2 as [l2|]; [|discriminate]. injection Q as <-. destruct (R _ eq_refl) as [R1 R2]. split; [|intros m [<-|I]; [right; right; congruence|auto]]. constructor; auto. right. cbn [src_var].
           pose proof (host_find_std _ _ HF) as [HS _]. unfold h_std in HS. rewrite HS. repeat split; eauto.
        -- rewrite M in F. destruct (get n (s_gvars x)); injection F as <- <-; injection H as <- <-; split; auto; discriminate.
Qed.

Lemma suite_find_false x s : wf x -> s <> const_one -> get s (d_vars (s_suite x)) = None -> (exists h, hfind s = Some h) ->
  suite_find compat host x s false = Ok (x, None).
Proof.
  intros W C S (h & HF). unfold suite_find. rewrite (proj2 (str_eqb_neq _ _) C), S.
  destruct (get s (s_gvars x)) as [i|] eqn:G; auto. apply (wf_g x W) in G. congruence.
Qed.
Lemma set_cur_call x d o : keys_ok d -> wf x -> wf (set_cur x (with_call (s_cur x) d o)).
Proof. intros K W. destruct W. constructor; cbn; auto. Qed.
Lemma tree_add_all_ok l : forall x, wf x -> g_run (s_cur x) = true -> Forall (subst_var x) l ->
  forall x', tree_add_all compat host x l = Ok x' -> exists d o, x' = set_cur x (with_call (s_cur x) d o) /\ call_ext (g_call (s_cur x)) d.
Proof.
  induction l as [|v l IH]; intros x W R FA x' H; cbn [tree_add_all] in H.
  - injection H as <-. exists (g_call (s_cur x)), (g_copt (s_cur x)). split; [now destruct x as [? [] ? ? ?]|]. apply call_ext_refl, (wf_c x W).
  - inversion FA as [|? ? F1 F2]; subst. apply bind_ok in H as (x1 & T & H).
    assert (X1 : exists d o, x1 = set_cur x (with_call (s_cur x) d o) /\ call_ext (g_call (s_cur x)) d).
    { unfold tree_add in T. rewrite R in T. cbn [andb] in T. destruct F1 as [->|(C & M & [G|[G (h & HF)]])].
      - cbn in T. injection T as <-. exists (g_call (s_cur x)), (g_copt (s_cur x)). split; [now destruct x as [? [] ? ? ?]|]. apply call_ext_refl, (wf_c x W).
      - rewrite (proj2 (has_true _ _)) in T by congruence. rewrite orb_true_r in T. injection T as <-.
        exists (g_call (s_cur x)), (g_copt (s_cur x)). split; [now destruct x as [? [] ? ? ?]|]. apply call_ext_refl, (wf_c x W).
      - rewrite (proj2 (has_false _ _) G), (proj2 (str_eqb_neq _ _) C) in T. cbn [orb] in T. unfold group_add_call in T. cbv zeta in T.
        rewrite (suite_find_false x _ W C (wf_s x W _ M)) in T by eauto. cbn [bind] in T. rewrite (proj2 (has_false _ _) G), R in T.
        rewrite andb_false_r in T. destruct (add_variable compat (g_call (s_cur x)) (with_intent v) true false true) as [d [u|]] eqn:A; [|discriminate].
        injection T as <-. exists d. eexists. split; [unfold with_call; rewrite R; reflexivity|].
        assert (WS : x_std (with_intent v) = x_std v) by (unfold with_intent; now destruct (x_intent v)).
        apply add_ok in A as (K & O & E); [|congruence|apply (wf_c x W)]. rewrite WS in *. split; auto. split; [|split].
        + intros t T. apply O. intros ->. congruence.
        + intros t T. destruct (str_eqb t (x_std v)) eqn:Q; [apply str_eqb_eq in Q; subst t|apply str_eqb_neq in Q; now rewrite O].
          destruct (get (x_std v) (d_vars (g_call (s_cur x)))); [|congruence]. destruct E as (_ & _ & w & E & _). congruence.
        + intros t T. destruct (str_eqb t (x_std v)) eqn:Q; [apply str_eqb_eq in Q; subst t|apply str_eqb_neq in Q; rewrite O in T; auto].
          right. split; auto. congruence. }
    destruct X1 as (d & o & -> & CE). apply IH in H as (d2 & o2 & -> & CE2).
    + exists d2, o2. split; [reflexivity|]. cbn [s_cur set_cur with_call g_call] in CE2. eapply call_ext_trans; eauto.
    + apply set_cur_call; auto. apply CE.
    + exact R.
    + exact F2.
Qed.

(* what one argument does *)
Definition with_dict (g : gst) (d : dict) (o : list (str * bool)) (loops : list str) : gst :=
  mkG (g_run g) d (g_call g) o (g_copt g) loops (g_schemes g).
Definition absent (x : st) (s : str) : Prop :=
  s <> const_one /\ get s (d_vars (g_dict (s_cur x))) = None /\ get s (d_vars (s_suite x)) = None.
Inductive astep (x : st) (a : arg) : st -> Prop :=
| A_same : a_std a = const_one \/ a_std a <> const_one /\ (get (a_std a) (d_vars (g_dict (s_cur x))) <> None \/ get (a_std a) (d_vars (s_suite x)) <> None) -> astep x a x
| A_promote i g v d u : absent x (a_std a) -> hfind (a_std a) = None -> get (a_std a) (s_gvars x) = Some i -> mem (a_std a) loop_names = false ->
    nth_error (s_past x) i = Some g -> get (a_std a) (d_vars (g_dict g)) = Some v ->
    add_variable compat (s_suite x) v false false false = (d, Ok u) ->
    astep x a (mkSt (upd i (mkG (g_run g) (remove_variable (g_dict g) (a_std a)) (g_call g) (g_lopt g) (g_copt g) (g_loops g) (g_schemes g)) (s_past x))
                    (s_cur x) d (note_opt (a_std a) (opt_of (a_std a) (g_lopt g)) (s_sopt x)) (del (a_std a) (s_gvars x)))
| A_host h d u gv gv' : absent x (a_std a) -> hfind (a_std a) = Some h -> (h_always h = true \/ a_opt a = true) ->
    (mem (a_std a) loop_names = true -> g_run (s_cur x) = true) ->
    add_variable compat (g_call (s_cur x)) (with_intent (a_var a)) true true true = (d, Ok u) ->
    get (a_std a) (d_vars d) = Some gv -> adjust_intent gv (a_var a) = Ok gv' ->
    astep x a (set_cur x (with_call (s_cur x) (mkD (set (a_std a) gv' (d_vars d)) (d_locals d)) (note_opt (a_std a) (a_opt a) (g_copt (s_cur x)))))
| A_loop d o names prefix n dd lo u : absent x (a_std a) -> hfind (a_std a) = None ->
    (mem (a_std a) loop_names = false -> get (a_std a) (s_gvars x) = None) ->
    g_run (s_cur x) = true -> get (a_std a) loop_substs = Some (names, prefix) -> call_ext (g_call (s_cur x)) d ->
    get (a_std a) (d_vars d) = None ->
    (forall n, In n names -> n = const_one \/ get n (d_vars (g_dict (s_cur x))) <> None \/ hfind n <> None) ->
    add_variable compat (g_dict (s_cur x)) (mkV (a_std a) n None false) true true false = (dd, Ok u) ->
    astep x a (set_cur x (with_dict (with_call (s_cur x) d o) dd lo (if mem (a_std a) (g_loops (s_cur x)) then g_loops (s_cur x) else g_loops (s_cur x) ++ [a_std a])))
| A_manage d u : absent x (a_std a) -> hfind (a_std a) = None ->
    (mem (a_std a) loop_names = false -> get (a_std a) (s_gvars x) = None) ->
    x_intent (a_var a) = Some Out_ \/ a_default a = true ->
    add_variable compat (g_dict (s_cur x)) (mkV (a_std a) (x_local (a_var a)) None (x_prot (a_var a))) true false false = (d, Ok u) ->
    astep x a (set_cur x (with_dict (s_cur x) d (note_opt (a_std a) (a_opt a) (g_lopt (s_cur x))) (g_loops (s_cur x)))).

Lemma with_intent_std v : x_std (with_intent v) = x_std v.
Proof. unfold with_intent; now destruct (x_intent v). Qed.

(* the group's call list has no variable the host lacks *)
Definition calls_provided (x : st) : Prop := forall s, get s (d_vars (g_call (s_cur x))) <> None -> hfind s <> None /\ s <> const_one.

Lemma scheme_add_ok x scl v e scl' : scheme_add compat x scl v e = Ok scl' ->
  (mem (x_std v) loop_names = true -> g_run (s_cur x) = true) /\ add_variable compat scl (with_intent v) e false true = (scl', Ok tt).
Proof.
  unfold scheme_add. intros H. destruct (mem (x_std v) loop_names && negb (g_run (s_cur x))) eqn:B; [discriminate|].
  destruct (add_variable compat scl (with_intent v) e false true) as [d [[]|]]; [|discriminate]. injection H as <-. split; auto.
  intros M. rewrite M in B. now destruct (g_run (s_cur x)).
Qed.

Lemma scheme_arg_ok x scl a x' scl' : wf x -> calls_provided x -> scheme_arg compat host x scl a = Ok (x', scl') ->
  astep x a x' /\ (mem (a_std a) loop_names = true -> g_run (s_cur x) = true) /\
  exists e, add_variable compat scl (with_intent (a_var a)) e false true = (scl', Ok tt).
Proof.
  intros W CP H. unfold scheme_arg in H. apply bind_ok in H as ([x1 f] & M & H).
  unfold match_variable in M. apply bind_ok in M as ([x2 f2] & F & M).
  unfold find_up in F. change (x_std (a_var a)) with (a_std a) in *. set (s := a_std a) in *.
  destruct (str_eqb s const_one) eqn:C.
  { injection F as <- <-. cbn [negb andb] in M. rewrite andb_false_r in M. apply bind_ok in M as (x3 & T & M). injection M as <- <-.
    assert (X : x3 = x).
    { unfold tree_add in T. change (x_std (a_var a)) with s in T. rewrite C in T. cbn [orb] in T. destruct (g_run (s_cur x)); cbn [andb] in T; [congruence|].
      unfold group_add_call in T. change (x_std (a_var a)) with s in T. unfold suite_find in T. rewrite C in T. cbn [bind] in T. congruence. }
    subst x3. apply bind_ok in H as (scl1 & SA & H). apply scheme_add_ok in SA as [LR SA]. apply bind_ok in H as (x4 & U & H). injection H as <- <-.
    unfold update_group in U. change (x_std (a_var a)) with s in U. rewrite C in U. injection U as <-. split; [constructor; left; now apply str_eqb_eq|]. eauto. }
  apply str_eqb_neq in C.
  destruct (get s (d_vars (g_dict (s_cur x)))) as [v|] eqn:GD.
  { injection F as <- <-. injection M as <- <-. apply bind_ok in H as (scl1 & SA & H). apply scheme_add_ok in SA as [LR SA]. apply bind_ok in H as (x4 & U & H). injection H as <- <-.
    assert (x4 = x) as ->; [|split; [constructor; right; split; auto; left; fold s; congruence|eauto]].
    unfold update_group in U. cbv zeta in U. change (x_std (a_var a)) with s in U. rewrite (proj2 (str_eqb_neq _ _) C) in U.
    destruct (get s (d_vars (g_call (s_cur x)))) as [gv|] eqn:GC.
    - exfalso. destruct (CP s); [congruence|]. apply H. apply (wf_l x W). congruence.
    - rewrite (proj2 (has_true _ _)) in U by congruence. congruence. }
  assert (NC : hfind s = None -> get s (d_vars (g_call (s_cur x))) = None).
  { intros N. destruct (get s (d_vars (g_call (s_cur x)))) eqn:E; auto. destruct (CP s); congruence. }
  unfold suite_find in F. rewrite (proj2 (str_eqb_neq _ _) C) in F.
  destruct (get s (d_vars (s_suite x))) as [v|] eqn:GS.
  { injection F as <- <-. injection M as <- <-. apply bind_ok in H as (scl1 & SA & H). apply scheme_add_ok in SA as [LR SA]. apply bind_ok in H as (x4 & U & H). injection H as <- <-.
    assert (x4 = x) as ->; [|split; [constructor; right; split; auto; right; fold s; congruence|eauto]].
    unfold update_group in U. cbv zeta in U. change (x_std (a_var a)) with s in U. rewrite (proj2 (str_eqb_neq _ _) C), NC in U by (apply (wf_h x W); congruence).
    rewrite (proj2 (has_false _ _) GD) in U. unfold find_up, suite_find in U. rewrite (proj2 (str_eqb_neq _ _) C), GD, GS in U. cbn [bind] in U. congruence. }
  destruct (hfind s) as [h|] eqn:HF.
  { injection F as <- <-. destruct (negb (a_opt a) && negb (h_always h)) eqn:OP; [discriminate|]. apply bind_ok in M as (x3 & T & M). injection M as <- <-.
    assert (X3 : (mem s loop_names = true -> g_run (s_cur x) = true) /\ exists d, add_variable compat (g_call (s_cur x)) (with_intent (a_var a)) true true true = (d, Ok tt) /\ x3 = set_cur x (with_call (s_cur x) d (note_opt s (a_opt a) (g_copt (s_cur x))))).
    { unfold tree_add in T. change (x_std (a_var a)) with s in T. rewrite (proj2 (str_eqb_neq _ _) C), (proj2 (has_false _ _) GD) in T. cbn [orb] in T. rewrite andb_false_r in T.
      unfold group_add_call in T. cbv zeta in T. change (x_std (a_var a)) with s in T. rewrite (suite_find_false x s W C GS) in T by eauto. cbn [bind] in T.
      rewrite (proj2 (has_false _ _) GD) in T. destruct (mem s loop_names && negb (g_run (s_cur x))) eqn:B; [discriminate|].
      destruct (add_variable compat (g_call (s_cur x)) (with_intent (a_var a)) true true true) as [d [[]|]]; [|discriminate]. injection T as <-.
      split; [intros ML; rewrite ML in B; now destruct (g_run (s_cur x))|]. exists d. split; reflexivity. }
    destruct X3 as (LR & d & A & ->). apply bind_ok in H as (scl1 & SA & H). apply scheme_add_ok in SA as [_ SA]. apply bind_ok in H as (x4 & U & H). injection H as <- <-.
    unfold update_group in U. cbv zeta in U. change (x_std (a_var a)) with s in U. rewrite (proj2 (str_eqb_neq _ _) C) in U. cbn [s_cur set_cur with_call g_call] in U.
    assert (G : exists gv, get s (d_vars d) = Some gv).
    { pose proof A as A'. apply add_ok in A' as (_ & _ & E); [|now rewrite with_intent_std|apply (wf_c x W)]. rewrite with_intent_std in E. change (x_std (a_var a)) with s in E.
      destruct (get s (d_vars (g_call (s_cur x)))) eqn:Q; [destruct E as (_ & _ & w & E & _)|destruct E as (w & E & _)]; eauto. }
    destruct G as [gv G]. rewrite G in U. apply bind_ok in U as (gv' & AI & U). injection U as <-. split; [|eauto].
    change (astep x a (set_cur x (with_call (s_cur x) (mkD (set s gv' (d_vars d)) (d_locals d)) (note_opt s (a_opt a) (g_copt (s_cur x)))))).
    eapply A_host; fold s; eauto; [now split|]. destruct (a_opt a); [now right|left]. now destruct (h_always h). }
  assert (F' : (exists i g v d, get s (s_gvars x) = Some i /\ mem s loop_names = false /\ nth_error (s_past x) i = Some g /\ get s (d_vars (g_dict g)) = Some v /\
                add_variable compat (s_suite x) v false false false = (d, Ok tt) /\ f2 = Some (FSuite v) /\
                x2 = mkSt (upd i (mkG (g_run g) (remove_variable (g_dict g) s) (g_call g) (g_lopt g) (g_copt g) (g_loops g) (g_schemes g)) (s_past x))
                    (s_cur x) d (note_opt s (opt_of s (g_lopt g)) (s_sopt x)) (del s (s_gvars x)))
               \/ (x2 = x /\ f2 = None /\ (mem s loop_names = false -> get s (s_gvars x) = None))).
  { destruct (get s (s_gvars x)) as [i|]; [|right; injection F as <- <-; auto].
    destruct (mem s loop_names); [right; injection F as <- <-; repeat split; auto; discriminate|].
    destruct (nth_error (s_past x) i) as [g|] eqn:NE; [|discriminate]. destruct (get s (d_vars (g_dict g))) as [v|] eqn:GV; [|discriminate].
    destruct (add_variable compat (s_suite x) v false false false) as [d [[]|]] eqn:A; [|discriminate]. injection F as <- <-.
    left. exists i, g, v, d. auto 10. }
  destruct F' as [(i & g & v & d & GG & ML & NE & GV & A & -> & ->)|(-> & -> & NG)].
  { injection M as <- <-. apply bind_ok in H as (scl1 & SA & H). apply scheme_add_ok in SA as [LR SA]. apply bind_ok in H as (x4 & U & H). injection H as <- <-.
    unfold update_group in U. cbv zeta in U. change (x_std (a_var a)) with s in U. cbn [s_cur] in U. rewrite (proj2 (str_eqb_neq _ _) C), NC in U by auto.
    rewrite (proj2 (has_false _ _) GD) in U. unfold find_up, suite_find in U. cbn [s_cur s_suite] in U. rewrite (proj2 (str_eqb_neq _ _) C), GD in U.
    assert (D : get s (d_vars d) <> None).
    { change (s) with (a_std a) in *. pose proof A as A'. unfold add_variable in A'. cbv zeta in A'.
      match type of A' with (if ?b then _ else _) = _ => destruct b; [discriminate|] end.
      destruct (check_existing compat (s_suite x) v false) as [d1 [u1|]]; [|discriminate]. destruct (resolve_local d1 v false false) as [v'|]; [|discriminate]. injection A' as <-. cbn [d_vars].
      assert (VS : x_std v = a_std a). { apply get_in in GV. apply (proj2 (wf_p x W _ _ NE)) in GV. exact GV. } rewrite VS. destruct (get (a_std a) (d_vars d1)) eqn:Q; [congruence|]. rewrite get_app, Q, str_eqb_refl. discriminate. }
    destruct (get s (d_vars d)) eqn:Q; [|congruence]. cbn [bind] in U. injection U as <-. split; [|split; eauto].
    eapply A_promote; fold s; eauto. now split. }
  assert (MG : x1 = x -> f = false -> astep x a x' /\ (mem s loop_names = true -> g_run (s_cur x) = true) /\
               exists e, add_variable compat scl (with_intent (a_var a)) e false true = (scl', Ok tt)).
  { intros -> ->. assert (OD : x_intent (a_var a) = Some Out_ \/ a_default a = true).
    { destruct (x_intent (a_var a)) as [[]|]; auto; destruct (a_default a); auto; discriminate. }
    assert (H' : (x3 <- manage compat x a ;; scl0 <- scheme_add compat x3 scl (a_var a) false ;; Ok (x3, scl0)) = Ok (x', scl')).
    { destruct (x_intent (a_var a)) as [[]|]; auto; destruct (a_default a); auto; discriminate. }
    apply bind_ok in H' as (x3 & MM & H'). apply bind_ok in H' as (scl0 & SA & H'). injection H' as <- <-.
    unfold manage in MM. cbv zeta in MM. change (x_std (a_var a)) with s in MM.
    destruct (add_variable compat (g_dict (s_cur x)) _ true false false) as [d [[]|]] eqn:A; [|discriminate]. injection MM as <-.
    apply scheme_add_ok in SA as [LR SA]. split; [|split; eauto].
    change (astep x a (set_cur x (with_dict (s_cur x) d (note_opt s (a_opt a) (g_lopt (s_cur x))) (g_loops (s_cur x))))).
    eapply A_manage; fold s; eauto. now split. }
  unfold loop_subst in M. destruct (g_run (s_cur x)) eqn:R.
  - destruct (get s loop_substs) as [[names prefix]|] eqn:LS.
    + apply bind_ok in M as ([x3 r3] & HS & M). apply (has_subst_ok _ _ W) in HS as [-> HS]; [|eapply loop_required; eauto].
      destruct r3 as [l|].
      * apply bind_ok in M as (x4 & TA & M). apply bind_ok in M as (x5 & RL & M). injection M as <- <-.
        destruct (HS l eq_refl) as [HS1 HS2]. apply tree_add_all_ok in TA as (d & o & -> & CE); auto.
        unfold register_loop in RL. cbv zeta in RL. cbn [s_cur set_cur with_call g_dict g_loops g_run g_call g_lopt g_copt g_schemes s_past s_suite s_sopt s_gvars] in RL. rewrite (proj2 (has_false _ _) GD) in RL.
        destruct (new_name _ _ _ _) as [n|]; [|discriminate]. destruct (add_variable compat (g_dict (s_cur x)) (mkV s n None false) true true false) as [dd [[]|]] eqn:A; [|discriminate].
        injection RL as <-. apply bind_ok in H as (scl1 & SA & H). apply scheme_add_ok in SA as [LR SA]. apply bind_ok in H as (x6 & U & H). injection H as <- <-.
        assert (DN : get s (d_vars d) = None).
        { destruct (get s (d_vars d)) eqn:Q; auto. destruct CE as (_ & _ & _ & CE). destruct (CE s) as [K|K]; [congruence| |]; [rewrite NC in K; congruence|tauto]. }
        unfold update_group in U. cbv zeta in U. change (x_std (a_var a)) with s in U. cbn [s_cur set_cur with_call g_dict g_loops g_run g_call g_lopt g_copt g_schemes s_past s_suite s_sopt s_gvars] in U.
        rewrite (proj2 (str_eqb_neq _ _) C), DN in U.
        assert (DD : get s (d_vars dd) <> None).
        { pose proof A as A'. apply add_ok in A' as (_ & _ & E); [|exact C|apply (wf_d x W)]. cbn [x_std] in E. rewrite GD in E. destruct E as (w & E & _). congruence. }
        rewrite (proj2 (has_true _ _) DD) in U. injection U as <-. split; [|split; eauto].
        eapply (A_loop x a d o names prefix n dd); fold s; eauto. now split.
      * injection M as <- <-. auto.
    + injection M as <- <-. auto.
  - injection M as <- <-. auto.
Qed.

(* ---- invariant of the whole analysis ---- *)
Definition usedD (dn : list (nat * arg)) (j : nat) (s : str) : Prop := exists a, In (j, a) dn /\ a_std a = s.
Definition pd (l : list gst) (j : nat) := match nth_error l j with Some g => d_vars (g_dict g) | None => [] end.
Definition pc (l : list gst) (j : nat) := match nth_error l j with Some g => d_vars (g_call g) | None => [] end.
Definition kk (x : st) := length (s_past x).
Definition gd (x : st) (j : nat) := if j =? kk x then d_vars (g_dict (s_cur x)) else pd (s_past x) j.
Definition gc (x : st) (j : nat) := if j =? kk x then d_vars (g_call (s_cur x)) else pc (s_past x) j.
Definition sv (x : st) := d_vars (s_suite x).
Record inv (dn : list (nat * arg)) (x : st) : Prop := {
  i_suitek : keys_ok (s_suite x);
  i_past : forall j g, nth_error (s_past x) j = Some g -> keys_ok (g_dict g) /\ keys_ok (g_call g);
  i_dk : keys_ok (g_dict (s_cur x));
  i_ck : keys_ok (g_call (s_cur x));
  i_loc : forall j s, get s (gd x j) <> None -> hfind s = None /\ s <> const_one /\ usedD dn j s;
  i_suite : forall s, get s (sv x) <> None -> hfind s = None /\ s <> const_one /\ mem s loop_names = false /\ exists j1 j2, j1 <> j2 /\ usedD dn j1 s /\ usedD dn j2 s;
  i_g1 : forall s i, get s (s_gvars x) = Some i -> i < kk x /\ get s (gd x i) <> None;
  i_g2 : forall s j, j < kk x -> get s (gd x j) <> None -> mem s loop_names = false -> get s (s_gvars x) = Some j;
  i_gn : NoDup (map fst (s_gvars x));
  i_only : forall j s, get s (gd x j) <> None -> mem s loop_names = false -> get s (sv x) = None /\ forall j', usedD dn j' s -> j' = j;
  i_call : forall j s, get s (gc x j) <> None -> hfind s <> None /\ s <> const_one;
  i_src : forall j s, usedD dn j s -> s <> const_one -> get s (gd x j) <> None \/ get s (gc x j) <> None \/ get s (sv x) <> None;
  i_le : forall j a, In (j, a) dn -> j <= kk x }.
Lemma inv_wf dn x : inv dn x -> wf x /\ calls_provided x.
Proof.
  intros I. split.
  - constructor.
    + intros s i G. apply (i_g1 _ _ I) in G as [_ G]. apply (i_loc _ _ I) in G. tauto.
    + intros s M. destruct (get s (d_vars (s_suite x))) eqn:E; auto. destruct (i_suite _ _ I s) as (_ & _ & K & _); [unfold sv; congruence|congruence].
    + intros s G. apply (i_loc _ _ I (kk x) s). unfold gd. now rewrite Nat.eqb_refl.
    + intros s G. now apply (i_suite _ _ I s).
    + intros j g G. now apply (i_past _ _ I j g).
    + apply (i_dk _ _ I).
    + apply (i_ck _ _ I).
  - intros s G. apply (i_call _ _ I (kk x) s). unfold gc. now rewrite Nat.eqb_refl.
Qed.
Lemma usedD_app dn dn' j s : usedD dn j s -> usedD (dn ++ dn') j s.
Proof. intros (a & I & E). exists a. rewrite in_app_iff. auto. Qed.
Lemma usedD_snoc dn k a j s : usedD (dn ++ [(k, a)]) j s <-> usedD dn j s \/ (j = k /\ s = a_std a).
Proof.
  split.
  - intros (b & I & E). apply in_app_iff in I as [I|[[= <- <-]|[]]]; [left; exists b; auto|right; auto].
  - intros [H|[-> ->]]; [now apply usedD_app|]. exists a. rewrite in_app_iff. cbn. auto.
Qed.
Lemma gd_lt x i : i < kk x -> gd x i = pd (s_past x) i.
Proof. intros H. unfold gd. destruct (Nat.eqb_spec i (kk x)); [lia|auto]. Qed.
Lemma pd_some l i s : get s (pd l i) <> None -> exists g, nth_error l i = Some g /\ get s (d_vars (g_dict g)) <> None.
Proof. unfold pd. destruct (nth_error l i) as [g|]; [eauto|cbn; congruence]. Qed.

(* a used variable is found *)
Lemma used_found dn x j s : inv dn x -> usedD dn j s -> s <> const_one -> hfind s = None -> mem s loop_names = false ->
  get s (d_vars (g_dict (s_cur x))) <> None \/ get s (sv x) <> None \/ get s (s_gvars x) <> None.
Proof.
  intros I U C H M. destruct (i_src _ _ I j s U C) as [D|[D|D]]; auto.
  - destruct U as (a & U & _). apply (i_le _ _ I) in U. destruct (Nat.eq_dec j (kk x)) as [->|N].
    + left. unfold gd in D. now rewrite Nat.eqb_refl in D.
    + right. right. rewrite (i_g2 _ _ I s j); auto; [discriminate|lia].
  - apply (i_call _ _ I) in D. tauto.
Qed.

Lemma inv_astep dn x a x' : inv dn x -> astep x a x' -> inv (dn ++ [(kk x, a)]) x'.
Proof.
  intros I A. destruct (inv_wf _ _ I) as [W CP]. set (s := a_std a).
  assert (LE : forall j b, In (j, b) (dn ++ [(kk x, a)]) -> j <= kk x).
  { intros j b H. apply in_app_iff in H as [H|[[= <- <-]|[]]]; [eapply i_le; eauto|lia]. }
  destruct A as [A|i g v d u AB HF GG ML NE GV AV|h d u gv gv' AB HF OP LR AV GD AI|d o names prefix n dd lo u AB HF NG R LS CE DN RQ AV|d u AB HF NG OD AV]; repeat match goal with H : context[a_std a] |- _ => progress fold s in H end; fold s.
  - (* found *)
    assert (OLD : s <> const_one -> mem s loop_names = false -> forall j, get s (gd x j) <> None -> j = kk x).
    { intros C M j D. destruct A as [A|[_ [A|A]]]; [congruence| |].
      - destruct (i_only _ _ I j s D M) as [_ O]. symmetry. apply O. apply (i_loc _ _ I (kk x) s). unfold gd. now rewrite Nat.eqb_refl.
      - destruct (i_only _ _ I j s D M) as [O _]. unfold sv in O. congruence. }
    constructor; try (now apply I); auto.
    + intros j t D. destruct (i_loc _ _ I j t D) as (H1 & H2 & H3). auto using usedD_app.
    + intros t D. destruct (i_suite _ _ I t D) as (H1 & H2 & H3 & j1 & j2 & H4 & H5 & H6). repeat split; auto. exists j1, j2. auto using usedD_app.
    + intros j t D M. destruct (i_only _ _ I j t D M) as [O1 O2]. split; auto. intros j' U. apply usedD_snoc in U as [U|[-> ->]]; auto.
      symmetry. apply OLD; auto. apply (i_loc _ _ I j _ D).
    + intros j t U C. apply usedD_snoc in U as [U|[-> ->]]; [now apply (i_src _ _ I)|]. destruct A as [A|[_ [A|A]]]; [unfold s in A; congruence| |auto].
      left. unfold gd. now rewrite Nat.eqb_refl.
  - (* moved to the suite *)
    destruct AB as (C & GD & GS). pose proof (get_in _ _ _ GV) as VS. apply (proj2 (wf_p x W _ _ NE)) in VS.
    assert (IL : i < length (s_past x)) by (apply nth_error_Some; congruence).
    pose proof (i_past _ _ I _ _ NE) as [KG KC].
    apply add_ok in AV as (KD & DO & DNEW); [|now rewrite VS|apply I]. rewrite VS, GS in *. destruct DNEW as (w & DS & _).
    set (g' := mkG (g_run g) (remove_variable (g_dict g) s) (g_call g) (g_lopt g) (g_copt g) (g_loops g) (g_schemes g)).
    assert (EK : forall c su so gv, kk (mkSt (upd i g' (s_past x)) c su so gv) = kk x) by (intros; unfold kk; cbn [s_past]; now rewrite upd_length).
    assert (ED : forall c su so gv j t, c = s_cur x -> get t (gd (mkSt (upd i g' (s_past x)) c su so gv) j) = if (j =? i) && str_eqb t s then None else get t (gd x j)).
    { intros c su so gv j t ->. unfold gd. rewrite EK. cbn [s_cur s_past]. destruct (Nat.eqb_spec j (kk x)) as [->|N].
      - destruct (Nat.eqb_spec (kk x) i); [unfold kk in *; lia|]. reflexivity.
      - unfold pd. rewrite (nth_upd _ i g' j IL). destruct (Nat.eqb_spec j i) as [->|N2]; cbn [andb]; auto.
        cbn [g' g_dict remove_variable d_vars]. rewrite NE, get_del by apply KG. reflexivity. }
    assert (EC : forall c su so gv j, c = s_cur x -> gc (mkSt (upd i g' (s_past x)) c su so gv) j = gc x j).
    { intros c su so gv j ->. unfold gc. rewrite EK. cbn [s_cur s_past]. destruct (Nat.eqb_spec j (kk x)) as [->|N]; auto.
      unfold pc. rewrite (nth_upd _ i g' j IL). destruct (Nat.eqb_spec j i) as [->|N2]; auto. now rewrite NE. }
    assert (US : usedD dn i s). { apply (i_loc _ _ I i s). rewrite gd_lt by (unfold kk; lia). unfold pd. rewrite NE. congruence. }
    assert (OI : forall j', usedD dn j' s -> j' = i).
    { apply (i_only _ _ I i s); auto. rewrite gd_lt by (unfold kk; lia). unfold pd. rewrite NE. congruence. }
    constructor; cbn [s_past s_cur s_suite s_sopt s_gvars]; try (now apply I); auto.
    + intros j g0 G0. rewrite (nth_upd _ i g' j IL) in G0. destruct (Nat.eqb_spec j i) as [->|N2]; [|now apply (i_past _ _ I j)].
      injection G0 as <-. cbn [g' g_dict g_call]. split; auto. apply (keys_step compat (g_dict g) (Remove s) KG).
    + intros j t D. rewrite ED in D by reflexivity. destruct ((j =? i) && str_eqb t s); [congruence|]. destruct (i_loc _ _ I j t D) as (H1 & H2 & H3). auto using usedD_app.
    + intros t D. unfold sv in D. cbn [s_suite] in D. destruct (str_eqb t s) eqn:Q.
      * apply str_eqb_eq in Q. subst t. repeat split; auto. exists i, (kk x). split; [unfold kk; lia|]. split; [now apply usedD_app|]. apply usedD_snoc. right. auto.
      * apply str_eqb_neq in Q. rewrite DO in D by auto. destruct (i_suite _ _ I t D) as (H1 & H2 & H3 & j1 & j2 & H4 & H5 & H6). repeat split; auto. exists j1, j2. auto using usedD_app.
    + intros t j G. rewrite EK, ED by reflexivity. rewrite get_del in G by apply I. destruct (str_eqb t s) eqn:Q; [discriminate|]. rewrite andb_false_r. now apply (i_g1 _ _ I).
    + intros t j J D M. rewrite EK in J. rewrite ED in D by reflexivity. rewrite get_del by apply I. destruct (str_eqb t s) eqn:Q.
      * apply str_eqb_eq in Q. subst t. rewrite andb_true_r in D. destruct (Nat.eqb_spec j i); [congruence|]. exfalso. apply n. apply OI. now apply (i_loc _ _ I j s).
      * rewrite andb_false_r in D. now apply (i_g2 _ _ I).
    + apply nodup_del, I.
    + intros j t D M. rewrite ED in D by reflexivity. destruct (str_eqb t s) eqn:Q.
      * apply str_eqb_eq in Q. subst t. rewrite andb_true_r in D. destruct (Nat.eqb_spec j i); [congruence|]. exfalso. apply n. apply OI. now apply (i_loc _ _ I j s).
      * rewrite andb_false_r in D. apply str_eqb_neq in Q. destruct (i_only _ _ I j t D M) as [O1 O2]. split; [unfold sv in *; cbn [s_suite]; now rewrite DO|].
        intros j' U. apply usedD_snoc in U as [U|[_ U]]; [auto|contradiction].
    + intros j t D. rewrite EC in D by reflexivity. now apply (i_call _ _ I j).
    + intros j t U T. rewrite ED, EC by reflexivity. unfold sv. cbn [s_suite]. destruct (str_eqb t s) eqn:Q.
      * apply str_eqb_eq in Q. subst t. right. right. congruence.
      * apply str_eqb_neq in Q. rewrite andb_false_r. rewrite DO by auto. apply usedD_snoc in U as [U|[_ U]]; [|contradiction]. now apply (i_src _ _ I).
    + intros j b H. rewrite EK. eauto.
  - (* from the host *)
    destruct AB as (C & GDN & GS). apply add_ok in AV as (KD & DO & DNEW); [|now rewrite with_intent_std|apply (wf_c x W)]. rewrite with_intent_std in *. change (x_std (a_var a)) with s in *.
    set (x' := set_cur x _).
    assert (ED : forall j, gd x' j = gd x j) by reflexivity.
    assert (EC : forall j t, get t (gc x' j) = if (j =? kk x) && str_eqb t s then Some gv' else get t (gc x j)).
    { intros j t. unfold gc. change (kk x') with (kk x). destruct (Nat.eqb_spec j (kk x)) as [->|N]; cbn [andb x' set_cur s_cur with_call g_call d_vars]; [|reflexivity].
      rewrite get_set. destruct (str_eqb t s) eqn:Q; auto. apply str_eqb_neq in Q. now apply DO. }
    assert (KM : keys_ok (mkD (set s gv' (d_vars d)) (d_locals d))).
    { split; cbn [d_vars]; [rewrite set_keys; [apply KD|]|].
      - apply get_in in GD. change s with (fst (s, gv)). now apply in_map.
      - intros t w H. apply set_in in H as [[= -> ->]|H]; [|now apply KD]. destruct (adjust_same _ _ _ AI) as [(AS & _) _]. apply get_in in GD. apply KD in GD. fold s. congruence. }
    constructor; auto; try (now apply I).
    + intros j t D. rewrite ED in D. destruct (i_loc _ _ I j t D) as (H1 & H2 & H3). auto using usedD_app.
    + intros t D. destruct (i_suite _ _ I t D) as (H1 & H2 & H3 & j1 & j2 & H4 & H5 & H6). repeat split; auto. exists j1, j2. auto using usedD_app.
    + intros j t D M. rewrite ED in D. destruct (i_only _ _ I j t D M) as [O1 O2]. split; auto. intros j' U. apply usedD_snoc in U as [U|[-> ->]]; auto.
      apply (i_loc _ _ I) in D. fold s in D. destruct D. congruence.
    + intros j t D. rewrite EC in D. destruct ((j =? kk x) && str_eqb t s) eqn:Q; [|now apply (i_call _ _ I j)].
      apply andb_prop in Q as [_ Q]. apply str_eqb_eq in Q. subst t. split; congruence.
    + intros j t U T. rewrite ED, EC. apply usedD_snoc in U as [U|[-> ->]].
      * destruct ((j =? kk x) && str_eqb t s); [right; left; discriminate|]. now apply (i_src _ _ I).
      * fold s. rewrite Nat.eqb_refl, str_eqb_refl. right. left. discriminate.
  - (* loop substitution *)
    destruct AB as (C & GDN & GS). apply add_ok in AV as (KD & DO & DNEW); [|auto|apply (wf_d x W)]. cbn [x_std] in *. fold s in DO, DNEW. rewrite GDN in DNEW.
    destruct DNEW as (w & DS & _).
    set (x' := set_cur x _).
    assert (ED : forall j t, get t (gd x' j) = if (j =? kk x) && str_eqb t s then Some w else get t (gd x j)).
    { intros j t. unfold gd. change (kk x') with (kk x). destruct (Nat.eqb_spec j (kk x)) as [->|N]; cbn [andb x' set_cur s_cur with_dict with_call g_dict d_vars]; [|reflexivity].
      destruct (str_eqb t s) eqn:Q; [apply str_eqb_eq in Q; now subst t|]. apply str_eqb_neq in Q. now apply DO. }
    destruct CE as (CK & C1 & C2 & C3).
    assert (EC : forall j t, get t (gc x j) <> None -> get t (gc x' j) <> None).
    { intros j t. unfold gc. change (kk x') with (kk x). destruct (Nat.eqb_spec j (kk x)) as [->|N]; cbn [x' set_cur s_cur with_dict with_call g_call]; auto. }
    assert (FRESH : mem s loop_names = false -> forall j, ~ usedD dn j s).
    { intros M j U. destruct (used_found _ _ _ _ I U C HF M) as [K|[K|K]]; [congruence|unfold sv in K; congruence|rewrite (NG M) in K; congruence]. }
    constructor; auto; try (now apply I).
    + intros j t D. rewrite ED in D. destruct ((j =? kk x) && str_eqb t s) eqn:Q.
      * apply andb_prop in Q as [J Q]. apply Nat.eqb_eq in J. apply str_eqb_eq in Q. subst j t. split; auto. split; auto. apply usedD_snoc. auto.
      * destruct (i_loc _ _ I j t D) as (H1 & H2 & H3). auto using usedD_app.
    + intros t D. destruct (i_suite _ _ I t D) as (H1 & H2 & H3 & j1 & j2 & H4 & H5 & H6). repeat split; auto. exists j1, j2. auto using usedD_app.
    + intros t j G. rewrite ED. change (kk x') with (kk x). destruct (i_g1 _ _ I t j G) as [H1 H2]. split; auto. destruct ((j =? kk x) && str_eqb t s); [discriminate|auto].
    + intros t j J D M. change (kk x') with (kk x) in J. rewrite ED in D. destruct (Nat.eqb_spec j (kk x)); [lia|]. now apply (i_g2 _ _ I).
    + intros j t D M. rewrite ED in D. destruct ((j =? kk x) && str_eqb t s) eqn:Q.
      * apply andb_prop in Q as [J Q]. apply Nat.eqb_eq in J. apply str_eqb_eq in Q. subst j t. split; auto. intros j' U. apply usedD_snoc in U as [U|[-> _]]; auto. exfalso. eapply FRESH; eauto.
      * destruct (i_only _ _ I j t D M) as [O1 O2]. split; auto. intros j' U. apply usedD_snoc in U as [U|[-> ->]]; auto.
        exfalso. eapply (FRESH M). apply (i_loc _ _ I j _ D).
    + intros j t D. unfold gc in D. change (kk x') with (kk x) in D. destruct (Nat.eqb_spec j (kk x)) as [->|N].
      * cbn [x' set_cur s_cur with_dict with_call g_call] in D. apply C3 in D as [D|D]; [|tauto]. apply (i_call _ _ I (kk x)). unfold gc. now rewrite Nat.eqb_refl.
      * apply (i_call _ _ I j). unfold gc. destruct (Nat.eqb_spec j (kk x)); [contradiction|exact D].
    + intros j t U T. rewrite ED. destruct ((j =? kk x) && str_eqb t s) eqn:Q; [left; discriminate|]. apply usedD_snoc in U as [U|[-> ->]].
      * destruct (i_src _ _ I j t U T) as [K|[K|K]]; auto.
      * fold s in Q. rewrite Nat.eqb_refl, str_eqb_refl in Q. discriminate.
  - (* declared by the group *)
    destruct AB as (C & GDN & GS). apply add_ok in AV as (KD & DO & DNEW); [|auto|apply (wf_d x W)]. cbn [x_std] in *. fold s in DO, DNEW. rewrite GDN in DNEW.
    destruct DNEW as (w & DS & _).
    set (x' := set_cur x _).
    assert (ED : forall j t, get t (gd x' j) = if (j =? kk x) && str_eqb t s then Some w else get t (gd x j)).
    { intros j t. unfold gd. change (kk x') with (kk x). destruct (Nat.eqb_spec j (kk x)) as [->|N]; cbn [andb x' set_cur s_cur with_dict with_call g_dict d_vars]; [|reflexivity].
      destruct (str_eqb t s) eqn:Q; [apply str_eqb_eq in Q; now subst t|]. apply str_eqb_neq in Q. now apply DO. }
    assert (FRESH : mem s loop_names = false -> forall j, ~ usedD dn j s).
    { intros M j U. destruct (used_found _ _ _ _ I U C HF M) as [K|[K|K]]; [congruence|unfold sv in K; congruence|rewrite (NG M) in K; congruence]. }
    constructor; auto; try (now apply I).
    + intros j t D. rewrite ED in D. destruct ((j =? kk x) && str_eqb t s) eqn:Q.
      * apply andb_prop in Q as [J Q]. apply Nat.eqb_eq in J. apply str_eqb_eq in Q. subst j t. split; auto. split; auto. apply usedD_snoc. auto.
      * destruct (i_loc _ _ I j t D) as (H1 & H2 & H3). auto using usedD_app.
    + intros t D. destruct (i_suite _ _ I t D) as (H1 & H2 & H3 & j1 & j2 & H4 & H5 & H6). repeat split; auto. exists j1, j2. auto using usedD_app.
    + intros t j G. rewrite ED. change (kk x') with (kk x). destruct (i_g1 _ _ I t j G) as [H1 H2]. split; auto. destruct ((j =? kk x) && str_eqb t s); [discriminate|auto].
    + intros t j J D M. change (kk x') with (kk x) in J. rewrite ED in D. destruct (Nat.eqb_spec j (kk x)); [lia|]. now apply (i_g2 _ _ I).
    + intros j t D M. rewrite ED in D. destruct ((j =? kk x) && str_eqb t s) eqn:Q.
      * apply andb_prop in Q as [J Q]. apply Nat.eqb_eq in J. apply str_eqb_eq in Q. subst j t. split; auto. intros j' U. apply usedD_snoc in U as [U|[-> _]]; auto. exfalso. eapply FRESH; eauto.
      * destruct (i_only _ _ I j t D M) as [O1 O2]. split; auto. intros j' U. apply usedD_snoc in U as [U|[-> ->]]; auto.
        exfalso. eapply (FRESH M). apply (i_loc _ _ I j _ D).
    + intros j t U T. rewrite ED. destruct ((j =? kk x) && str_eqb t s) eqn:Q; [left; discriminate|]. apply usedD_snoc in U as [U|[-> ->]].
      * destruct (i_src _ _ I j t U T) as [K|[K|K]]; auto.
      * fold s in Q. rewrite Nat.eqb_refl, str_eqb_refl in Q. discriminate.
Qed.

(* ---- the end of a scheme and of a group ---- *)
Definition end_scheme (x : st) (scl : dict) : st :=
  let g := s_cur x in set_cur x (mkG (g_run g) (g_dict g) (g_call g) (g_lopt g) (g_copt g) (g_loops g) (g_schemes g ++ [scl])).
Definition end_group (x : st) (run : bool) : st :=
  mkSt (s_past x ++ [s_cur x]) (new_group run) (s_suite x) (s_sopt x)
       (add_gvars (length (s_past x)) (map fst (d_vars (g_dict (s_cur x)))) (s_gvars x)).
Lemma inv_end_scheme dn x scl : inv dn x -> inv dn (end_scheme x scl).
Proof. intros I. destruct I. now constructor. Qed.
Lemma get_add_gvars i names s : forall l, get s (add_gvars i names l) = match get s l with Some j => Some j | None => if mem s names then Some i else None end.
Proof.
  unfold add_gvars. induction names as [|n names IH]; intros l; cbn [fold_left mem existsb]; [now destruct (get s l)|].
  rewrite IH. unfold has. destruct (get n l) eqn:E.
  - destruct (get s l) eqn:G; auto. destruct (str_eqb s n) eqn:Q; cbn [orb]; auto. apply str_eqb_eq in Q. subst. congruence.
  - rewrite get_app. destruct (get s l); auto. now destruct (str_eqb s n).
Qed.
Lemma nodup_add_gvars i names : forall l, NoDup (map fst l) -> NoDup (map fst (add_gvars i names l)).
Proof.
  unfold add_gvars. induction names as [|n names IH]; intros l N; cbn [fold_left]; auto. apply IH.
  unfold has. destruct (get n l) eqn:E; auto. rewrite map_app. apply NoDup_snoc; auto. now apply get_none.
Qed.
Lemma kk_end x run : kk (end_group x run) = S (kk x).
Proof. unfold kk, end_group. cbn [s_past]. rewrite app_length. cbn. lia. Qed.
Lemma gd_end x run j : gd (end_group x run) j = gd x j.
Proof.
  unfold gd. rewrite kk_end. destruct (Nat.eqb_spec j (S (kk x))) as [->|N].
  - destruct (Nat.eqb_spec (S (kk x)) (kk x)); [lia|]. unfold pd. rewrite (proj2 (nth_error_None _ _)); [reflexivity|unfold kk; lia].
  - unfold pd, end_group. cbn [s_past]. destruct (Nat.eqb_spec j (kk x)) as [->|N2].
    + rewrite nth_error_app2 by (unfold kk; lia). unfold kk. now rewrite Nat.sub_diag.
    + destruct (Nat.lt_ge_cases j (length (s_past x))).
      * now rewrite nth_error_app1.
      * rewrite !(proj2 (nth_error_None _ _)); auto. rewrite app_length. cbn. unfold kk in *. lia.
Qed.
Lemma gc_end x run j : gc (end_group x run) j = if j =? S (kk x) then d_vars (g_call (new_group run)) else gc x j.
Proof.
  unfold gc. rewrite kk_end. destruct (Nat.eqb_spec j (S (kk x))) as [->|N]; auto.
  unfold pc, end_group. cbn [s_past]. destruct (Nat.eqb_spec j (kk x)) as [->|N2].
  + rewrite nth_error_app2 by (unfold kk; lia). unfold kk. now rewrite Nat.sub_diag.
  + destruct (Nat.lt_ge_cases j (length (s_past x))).
    * now rewrite nth_error_app1.
    * rewrite !(proj2 (nth_error_None _ _)); auto. rewrite app_length. cbn. unfold kk in *. lia.
Qed.
Lemma new_group_calls run s : get s (d_vars (g_call (new_group run))) <> None <-> In s error_names.
Proof.
  unfold new_group, error_names. cbn [g_call d_vars get]. split.
  - destruct (str_eqb s (x_std err_code)) eqn:E; [apply str_eqb_eq in E; subst; now left|].
    destruct (str_eqb s (x_std err_msg)) eqn:E2; [apply str_eqb_eq in E2; subst; right; now left|congruence].
  - intros [<-|[<-|[]]]; vm_compute; discriminate.
Qed.
Lemma new_group_keys run : keys_ok (g_call (new_group run)).
Proof.
  split; cbn [new_group g_call d_vars map fst].
  - constructor; [intros [H|[]]; vm_compute in H; discriminate|]. constructor; [intros []|constructor].
  - intros s v [[= <- <-]|[[= <- <-]|[]]]; reflexivity.
Qed.
Context (HERR : forall s, In s error_names -> provided host s).
Lemma err_provided s : In s error_names -> hfind s <> None /\ s <> const_one.
Proof.
  intros H. split; [apply HERR, host_find_some in H as [h ->]; discriminate|].
  destruct H as [<-|[<-|[]]]; vm_compute; discriminate.
Qed.
Lemma inv_end_group dn x run : inv dn x -> inv dn (end_group x run).
Proof.
  intros I. constructor; try (now apply I).
  - intros j g G. cbn [end_group s_past] in G. destruct (Nat.lt_ge_cases j (length (s_past x))).
    + rewrite nth_error_app1 in G by auto. now apply (i_past _ _ I j).
    + rewrite nth_error_app2 in G by auto. destruct (j - length (s_past x)) as [|m]; cbn in G; [|now destruct m]. injection G as <-. split; apply I.
  - cbn. split; [constructor|intros s v []].
  - apply new_group_keys.
  - intros j s. rewrite gd_end. apply (i_loc _ _ I).
  - intros s i G. cbn [end_group s_gvars] in G. rewrite get_add_gvars in G. rewrite kk_end, gd_end. destruct (get s (s_gvars x)) eqn:E.
    + injection G as <-. destruct (i_g1 _ _ I s n E). auto.
    + destruct (mem s (map fst (d_vars (g_dict (s_cur x))))) eqn:M; [|discriminate]. injection G as <-. fold (kk x). split; [lia|].
      unfold gd. rewrite Nat.eqb_refl. intros N. apply get_none in N. apply N. now apply mem_in.
  - intros s j J D M. rewrite kk_end in J. rewrite gd_end in D. cbn [end_group s_gvars]. rewrite get_add_gvars.
    destruct (Nat.eq_dec j (kk x)) as [->|N].
    + destruct (get s (s_gvars x)) as [i|] eqn:E.
      * destruct (i_g1 _ _ I s i E) as [H1 H2]. exfalso. destruct (i_only _ _ I _ _ D M) as [_ O]. specialize (O i). rewrite O in H1; [lia|]. now apply (i_loc _ _ I i s).
      * unfold gd in D. rewrite Nat.eqb_refl in D. rewrite (proj2 (mem_in _ _)); auto.
        destruct (in_dec (list_eq_dec Ascii.ascii_dec) s (map fst (d_vars (g_dict (s_cur x))))); auto. exfalso. apply D. now apply get_none.
    + rewrite (i_g2 _ _ I s j); auto. lia.
  - cbn [end_group s_gvars]. apply nodup_add_gvars, I.
  - intros j s. rewrite gd_end. apply (i_only _ _ I).
  - intros j s. rewrite gc_end. destruct (j =? S (kk x)); [intros H; apply new_group_calls in H; now apply err_provided|apply (i_call _ _ I)].
  - intros j s U C. rewrite gd_end, gc_end. destruct (Nat.eqb_spec j (S (kk x))) as [->|N]; [|now apply (i_src _ _ I)].
    destruct U as (a & U & _). apply (i_le _ _ I) in U. lia.
  - intros j a H. rewrite kk_end. apply (i_le _ _ I) in H. lia.
Qed.
Lemma inv_start run : inv [] (mkSt [] (new_group run) d_empty [] []).
Proof.
  assert (U : forall j s, ~ usedD [] j s) by (intros j s (a & [] & _)).
  constructor; cbn [s_past s_cur s_suite s_gvars].
  - split; [constructor|intros s v []].
  - intros [|j] g H; discriminate.
  - split; [constructor|intros s v []].
  - apply new_group_keys.
  - intros [|j] s H; cbn in H; try (destruct j); cbn in H; congruence.
  - intros s H. cbn in H. congruence.
  - intros s i H. cbn in H. discriminate.
  - intros s j H. cbn in H. lia.
  - constructor.
  - intros [|j] s H; cbn in H; try (destruct j); cbn in H; congruence.
  - intros [|j] s H.
    + unfold gc in H. cbn [kk s_past length Nat.eqb s_cur] in H. apply new_group_calls in H. now apply err_provided.
    + unfold gc, pc in H. cbn [kk s_past length Nat.eqb nth_error] in H. cbn in H. congruence.
  - intros j s H. now apply U in H.
  - intros j a [].
Qed.

(* ---- induction over the analysis ---- *)
Inductive added : dict -> list arg -> dict -> Prop :=
| Ad_nil d : added d [] d
| Ad_cons d a e d' l d'' : add_variable compat d (with_intent (a_var a)) e false true = (d', Ok tt) -> added d' l d'' -> added d (a :: l) d''.
Section Ind.
Variable P : list (nat * arg) -> st -> Prop.
Hypothesis P_arg : forall dn x a x', inv dn x -> P dn x -> astep x a x' -> (mem (a_std a) loop_names = true -> g_run (s_cur x) = true) -> P (dn ++ [(kk x, a)]) x'.
Hypothesis P_scheme : forall dn dn' x scl l, inv (dn ++ dn') x -> P (dn ++ dn') x -> dn' = map (fun a => (kk x, a)) l -> added d_empty l scl -> P (dn ++ dn') (end_scheme x scl).
Hypothesis P_group : forall dn x run, inv dn x -> P dn x -> P dn (end_group x run).
Lemma astep_kk x a x' : astep x a x' -> kk x' = kk x.
Proof. intros []; unfold kk; cbn; auto. apply upd_length. Qed.
Lemma ind_args l : forall dn x scl x' scl', inv dn x -> P dn x -> scheme_args compat host x scl l = Ok (x', scl') ->
  inv (dn ++ map (fun a => (kk x, a)) l) x' /\ P (dn ++ map (fun a => (kk x, a)) l) x' /\ kk x' = kk x /\ added scl l scl'.
Proof.
  induction l as [|a l IH]; intros dn x scl x' scl' I H R; cbn [scheme_args] in R.
  - injection R as <- <-. cbn. rewrite app_nil_r. split; [exact I|]. split; [exact H|]. split; [reflexivity|constructor].
  - apply bind_ok in R as ([x1 scl1] & A & R). destruct (inv_wf _ _ I) as [W CP]. apply scheme_arg_ok in A as (A & LR & e & AD); auto.
    pose proof (astep_kk _ _ _ A) as K. apply IH with (dn := dn ++ [(kk x, a)]) in R as (R1 & R2 & R3 & R4).
    + cbn [map]. rewrite K, <- app_assoc in R1, R2. split; [exact R1|]. split; [exact R2|]. split; [congruence|]. econstructor; eauto.
    + eapply inv_astep; eauto.
    + eapply P_arg; eauto.
Qed.
Lemma ind_schemes l : forall dn x x', inv dn x -> P dn x -> schemes_analyze compat host x l = Ok x' ->
  inv (dn ++ map (fun a => (kk x, a)) (List.concat l)) x' /\ P (dn ++ map (fun a => (kk x, a)) (List.concat l)) x' /\ kk x' = kk x.
Proof.
  induction l as [|sch l IH]; intros dn x x' I H R; cbn [schemes_analyze] in R.
  - injection R as <-. cbn. rewrite app_nil_r. auto.
  - apply bind_ok in R as (x1 & A & R). unfold scheme_analyze in A. apply bind_ok in A as ([x2 scl] & A & B). injection B as <-.
    destruct (ind_args _ _ _ _ _ _ I H A) as (A1 & A2 & A3 & A4).
    change (schemes_analyze compat host (end_scheme x2 scl) l = Ok x') in R.
    apply IH with (dn := dn ++ map (fun a => (kk x, a)) sch) in R as (R1 & R2 & R3).
    + cbn [List.concat]. change (kk (end_scheme x2 scl)) with (kk x2) in *. rewrite A3 in *. rewrite map_app, app_assoc. auto.
    + now apply inv_end_scheme.
    + eapply P_scheme; eauto. now rewrite A3.
Qed.
Definition args_from (k : nat) (sdf : suite) : list (nat * arg) :=
  flat_map (fun kg => map (fun a => (fst kg, a)) (List.concat (snd (snd kg)))) (number k sdf).
Lemma ind_groups l : forall dn x gs su so, inv dn x -> P dn x -> d_vars (g_dict (s_cur x)) = [] -> (exists run, s_cur x = new_group run) -> (forall run, P dn (set_cur x (new_group run))) ->
  groups_analyze compat host (s_past x) (s_suite x) (s_sopt x) (s_gvars x) l = Ok (gs, su, so) ->
  exists x', inv (dn ++ args_from (kk x) l) x' /\ P (dn ++ args_from (kk x) l) x' /\ gs = s_past x' /\ su = s_suite x' /\ so = s_sopt x' /\ (exists run, s_cur x' = new_group run) /\ kk x' = kk x + length l.
Proof.
  induction l as [|[run schemes] l IH]; intros dn x gs su so I H E NG PR R; cbn [groups_analyze] in R.
  - injection R as <- <- <-. exists x. cbn [args_from number flat_map]. rewrite app_nil_r. cbn [length]. rewrite Nat.add_0_r. auto 10.
  - apply bind_ok in R as (x1 & A & R). change (mkSt (s_past x) (new_group run) (s_suite x) (s_sopt x) (s_gvars x)) with (set_cur x (new_group run)) in A.
    assert (I' : inv dn (set_cur x (new_group run))) by (destruct NG as [r NG]; destruct I; rewrite NG in *; constructor; auto; cbn [s_cur set_cur]; try apply new_group_keys; intros j s; unfold gd, gc in *; cbn [s_past s_cur set_cur kk] in *; rewrite NG in *; eauto).
    destruct (ind_schemes _ _ _ _ I' (PR run) A) as (A1 & A2 & A3). change (kk (set_cur x (new_group run))) with (kk x) in *.
    destruct (IH (dn ++ map (fun a => (kk x, a)) (List.concat schemes)) (end_group x1 run) gs su so) as (x' & X1 & X2 & X3 & X4 & X5 & X6 & X7).
    + now apply inv_end_group.
    + now apply P_group.
    + reflexivity.
    + exists run. reflexivity.
    + intros r. change (P (dn ++ map (fun a => (kk x, a)) (List.concat schemes)) (end_group x1 r)). now apply P_group.
    + exact R.
    + exists x'. rewrite kk_end, A3 in *. cbn [length]. rewrite <- app_assoc in X1, X2. split; [exact X1|]. split; [exact X2|]. split; [auto|]. split; [auto|]. split; [auto|]. split; [auto|]. lia.
Qed.
Lemma ind_suite sdf gs su so : (forall run, P [] (mkSt [] (new_group run) d_empty [] [])) ->
  suite_analyze compat host sdf = Ok (gs, su, so) ->
  exists x', inv (in_order_args sdf) x' /\ P (in_order_args sdf) x' /\ gs = s_past x' /\ su = s_suite x' /\ so = s_sopt x' /\ (exists run, s_cur x' = new_group run) /\ kk x' = length sdf.
Proof.
  intros PS R.
  destruct (ind_groups sdf [] (mkSt [] (new_group true) d_empty [] []) gs su so (inv_start true) (PS true) eq_refl (ex_intro _ true eq_refl) PS R)
    as (x' & X1 & X2 & X3 & X4 & X5 & X6 & X7).
  exists x'. auto 10.
Qed.
End Ind.

(* ---- intents of the dummy arguments of a group ---- *)
Definition uses_of (dn : list (nat * arg)) (j : nat) (s : str) : list intent :=
  map (fun p => intent_of (snd p)) (List.filter (fun p => (fst p =? j) && str_eqb (a_std (snd p)) s) dn).
Definition base (s : str) : list intent := if mem s error_names then [Out_] else [].
Definition Pint (dn : list (nat * arg)) (x : st) : Prop :=
  (forall j s v, get s (gc x j) = Some v -> mem s loop_names = false ->
    exists i, x_intent v = Some i /\ merged_intent (base s ++ uses_of dn j s) i) /\
  (forall s, In s error_names -> get s (d_vars (g_call (s_cur x))) <> None).
Lemma uses_snoc dn k a j s : uses_of (dn ++ [(k, a)]) j s = uses_of dn j s ++ (if (k =? j) && str_eqb (a_std a) s then [intent_of a] else []).
Proof. unfold uses_of. rewrite filter_app, map_app. f_equal. cbn [List.filter fst snd]. now destruct ((k =? j) && str_eqb (a_std a) s). Qed.
Lemma uses_nil dn j s : ~ usedD dn j s -> uses_of dn j s = [].
Proof.
  unfold uses_of. intros H. destruct (List.filter _ dn) as [|[j' a] l] eqn:E; auto. exfalso. apply H.
  assert (I : In (j', a) (List.filter (fun p => (fst p =? j) && str_eqb (a_std (snd p)) s) dn)) by (rewrite E; now left).
  apply filter_In in I as [I B]. cbn [fst snd] in B. apply andb_prop in B as [B1 B2]. apply Nat.eqb_eq in B1. apply str_eqb_eq in B2. subst. exists a. auto.
Qed.
Lemma with_intent_of a : x_intent (with_intent (a_var a)) = Some (intent_of a).
Proof. unfold with_intent, intent_of. destruct (x_intent (a_var a)) eqn:E; auto. Qed.
Lemma Pint_arg dn x a x' : inv dn x -> Pint dn x -> astep x a x' -> Pint (dn ++ [(kk x, a)]) x'.
Proof.
  intros I [P PE] A. destruct (inv_wf _ _ I) as [W CP].
  assert (SAME : forall y, (forall j s v, get s (gc y j) = Some v -> mem s loop_names = false -> get s (gc x j) = Some v) ->
                 (a_std a = const_one \/ hfind (a_std a) = None) ->
                 (forall s, In s error_names -> get s (d_vars (g_call (s_cur y))) <> None) -> Pint (dn ++ [(kk x, a)]) y).
  { intros y Y N YE. split; [|exact YE]. intros j s v G M. apply Y in G; auto. destruct (P j s v G M) as (i & X & MI). exists i. split; auto.
    rewrite uses_snoc. destruct ((kk x =? j) && str_eqb (a_std a) s) eqn:Q; [|now rewrite app_nil_r].
    apply andb_prop in Q as [_ Q]. apply str_eqb_eq in Q. subst s. destruct (i_call _ _ I j (a_std a)); [congruence|]. destruct N; congruence. }
  destruct A as [A|i g v d u AB HF GG ML NE GV AV|h d u gv gv' AB HF OP LR AV GD AI|d o names prefix n dd lo u AB HF NG R LS CE DN RQ AV|d u AB HF NG OD AV].
  - apply SAME; auto. destruct A as [A|[_ [A|A]]]; auto; right; [now apply (wf_l x W)|now apply (wf_h x W)].
  - apply SAME; auto. intros j s v0 G M. unfold gc in *. unfold kk in *. cbn [s_past s_cur] in G. rewrite upd_length in G.
    destruct (j =? length (s_past x)); auto. unfold pc in *. rewrite nth_upd in G by (apply nth_error_Some; congruence).
    destruct (Nat.eqb_spec j i) as [->|N]; auto. rewrite NE. exact G.
  - apply add_ok in AV as (KD & DO & DNEW); [|rewrite with_intent_std; apply AB|apply (wf_c x W)]. rewrite with_intent_std in *. change (x_std (a_var a)) with (a_std a) in *.
    split; [|intros s E; cbn [set_cur s_cur with_call g_call d_vars]; rewrite get_set; destruct (str_eqb s (a_std a)) eqn:Q; [discriminate|]; apply str_eqb_neq in Q; rewrite DO by auto; now apply PE].
    intros j s v G M. rewrite uses_snoc. unfold gc in G. change (kk (set_cur x _)) with (kk x) in G. destruct (Nat.eqb_spec j (kk x)) as [->|N].
    + cbn [set_cur s_cur with_call g_call d_vars] in G. rewrite get_set in G. rewrite Nat.eqb_refl. cbn [andb].
      destruct (str_eqb s (a_std a)) eqn:Q.
      * injection G as <-. apply str_eqb_eq in Q. subst s. rewrite str_eqb_refl.
        assert (J : exists i0, x_intent gv = Some i0 /\ merged_intent (base (a_std a) ++ uses_of dn (kk x) (a_std a) ++ [intent_of a]) i0 /\ join_i i0 (intent_of a) = i0).
        { destruct (get (a_std a) (d_vars (g_call (s_cur x)))) as [c|] eqn:GC.
          - destruct DNEW as (_ & _ & w & DW & SB & _ & JN). rewrite GD in DW. injection DW as <-.
            destruct (P (kk x) (a_std a) c) as (i0 & X & MI); [unfold gc; now rewrite Nat.eqb_refl|auto|].
            exists (join_i i0 (intent_of a)). rewrite (JN i0 (intent_of a) X (with_intent_of a)). split; [reflexivity|]. split; [|apply join_again].
            rewrite app_assoc. apply join_merged. exact MI.
          - destruct DNEW as (w & DW & _ & _ & WI & _). rewrite GD in DW. injection DW as <-. exists (intent_of a). rewrite WI, with_intent_of. split; auto.
            assert (U : ~ usedD dn (kk x) (a_std a)).
            { intros U. destruct AB as (C & ABD & ABS). destruct (i_src _ _ I _ _ U C) as [K|[K|K]].
              - unfold gd in K. rewrite Nat.eqb_refl in K. congruence.
              - unfold gc in K. rewrite Nat.eqb_refl in K. congruence.
              - unfold sv in K. congruence. }
            rewrite (uses_nil _ _ _ U). cbn [app]. unfold base. destruct (mem (a_std a) error_names) eqn:ME.
            + exfalso. apply mem_in in ME. now apply PE in ME.
            + split; [|now destruct (intent_of a)]. split; [discriminate|]. left. intros k [<-|[]]. reflexivity. }
        destruct J as (i0 & X & MI & JJ). exists i0. split; [|now rewrite app_assoc in MI |- *].
        destruct (adjust_join _ _ _ AI _ X) as [XI _]. rewrite XI. f_equal. exact JJ.
      * apply str_eqb_neq in Q. rewrite DO in G by auto. replace (str_eqb (a_std a) s) with false by (symmetry; apply str_eqb_neq; auto). rewrite app_nil_r. apply (P (kk x)); auto. unfold gc. now rewrite Nat.eqb_refl.
    + destruct (Nat.eqb_spec (kk x) j); [congruence|]. cbn [andb]. rewrite app_nil_r. apply P; auto. unfold gc. destruct (Nat.eqb_spec j (kk x)); [contradiction|exact G].
  - destruct CE as (_ & C1 & C2 & _). apply SAME; auto. intros j s v G M. unfold gc in *. change (kk (set_cur x _)) with (kk x) in G. destruct (Nat.eqb_spec j (kk x)) as [->|N]; auto.
    cbn [set_cur s_cur with_dict with_call g_call] in G. now rewrite C1 in G.
  - apply SAME; auto.
Qed.
Lemma Pint_group dn x run : inv dn x -> Pint dn x -> Pint dn (end_group x run).
Proof.
  intros I [P PE]. split; [|intros s; apply (new_group_calls run)].
  intros j s v G M. rewrite gc_end in G. destruct (Nat.eqb_spec j (S (kk x))) as [->|N]; [|now apply P].
  assert (U : ~ usedD dn (S (kk x)) s) by (intros (a & U & _); apply (i_le _ _ I) in U; lia). rewrite (uses_nil _ _ _ U).
  assert (E : In s error_names) by (apply (new_group_calls run); congruence). unfold base. rewrite (proj2 (mem_in _ _) E). exists Out_. split.
  - destruct E as [<-|[<-|[]]]; vm_compute in G; injection G as <-; reflexivity.
  - split; [discriminate|]. left. intros k [<-|[]]. reflexivity.
Qed.
Lemma Pint_start run : Pint [] (mkSt [] (new_group run) d_empty [] []).
Proof.
  split; [|intros s; apply (new_group_calls run)]. intros [|j] s v G M.
  - unfold gc in G. cbn [kk s_past length Nat.eqb s_cur] in G. assert (E : In s error_names) by (apply (new_group_calls run); congruence).
    unfold base. rewrite (proj2 (mem_in _ _) E). exists Out_. split.
    + destruct E as [<-|[<-|[]]]; vm_compute in G; injection G as <-; reflexivity.
    + split; [discriminate|]. left. intros k [<-|[]]. reflexivity.
  - unfold gc, pc in G. cbn [kk s_past length Nat.eqb nth_error] in G. discriminate.
Qed.

(* ---- the first use of a variable the host lacks ---- *)
Definition Pfirst (dn : list (nat * arg)) (x : st) : Prop :=
  forall j s, usedD dn j s -> s <> const_one -> hfind s = None -> mem s loop_names = false -> get s loop_substs = None ->
    exists l1 j0 a0 l2, dn = l1 ++ (j0, a0) :: l2 /\ a_std a0 = s /\ (x_intent (a_var a0) = Some Out_ \/ a_default a0 = true) /\
      forall j' a', In (j', a') l1 -> a_std a' <> s.
Lemma Pfirst_arg dn x a x' : inv dn x -> Pfirst dn x -> astep x a x' -> Pfirst (dn ++ [(kk x, a)]) x'.
Proof.
  intros I P A j s U C H M LS.
  assert (OLD : (exists j', usedD dn j' s) -> exists l1 j0 a0 l2, dn ++ [(kk x, a)] = l1 ++ (j0, a0) :: l2 /\ a_std a0 = s /\ (x_intent (a_var a0) = Some Out_ \/ a_default a0 = true) /\
      forall j' a', In (j', a') l1 -> a_std a' <> s).
  { intros (j' & U'). destruct (P j' s U' C H M LS) as (l1 & j0 & a0 & l2 & -> & E). exists l1, j0, a0, (l2 ++ [(kk x, a)]). rewrite <- app_assoc. auto. }
  apply usedD_snoc in U as [U|[-> ->]]; [eauto|].
  destruct A as [A|i g v d u AB HF GG ML NE GV AV|h d u gv gv' AB HF OP LR AV GD AI|d o names prefix n dd lo u AB HF NG R LS' CE DN RQ AV|d u AB HF NG OD AV].
  - apply OLD. destruct A as [A|[_ [A|A]]]; [congruence| |].
    + exists (kk x). apply (i_loc _ _ I (kk x) (a_std a)). unfold gd. now rewrite Nat.eqb_refl.
    + destruct (i_suite _ _ I (a_std a) A) as (_ & _ & _ & j1 & j2 & _ & U & _). eauto.
  - apply OLD. exists i. apply (i_g1 _ _ I) in GG as [_ GG]. now apply (i_loc _ _ I i (a_std a)).
  - congruence.
  - congruence.
  - exists dn, (kk x), a, []. repeat split; auto. intros j' a' IN E. destruct AB as (_ & ABD & ABS).
    assert (UU : usedD dn j' (a_std a)) by (exists a'; auto).
    destruct (used_found dn x j' _ I UU C HF M) as [K|[K|K]]; [congruence|unfold sv in K; congruence|rewrite (NG M) in K; congruence].
Qed.

(* ---- the call lists of the schemes ---- *)
Definition ps (l : list gst) (j : nat) := match nth_error l j with Some g => g_schemes g | None => [] end.
Definition gs (x : st) (j : nat) := if j =? kk x then g_schemes (s_cur x) else ps (s_past x) j.
Lemma astep_gs x a x' j : astep x a x' -> gs x' j = gs x j.
Proof.
  intros A. destruct A as [A|i g v d u AB HF GG ML NE GV AV|h d u gv gv' AB HF OP LR AV GD AI|d o names prefix n dd lo u AB HF NG R LS' CE DN RQ AV|d u AB HF NG OD AV]; try reflexivity.
  unfold gs, kk. cbn [s_past s_cur]. rewrite upd_length. destruct (j =? length (s_past x)); auto. unfold ps. rewrite nth_upd by (apply nth_error_Some; congruence).
  destruct (Nat.eqb_spec j i) as [->|N]; auto. now rewrite NE.
Qed.
Lemma args_gs l : forall dn x scl x' scl', inv dn x -> scheme_args compat host x scl l = Ok (x', scl') ->
  forall j, gs x' j = gs x j.
Proof.
  induction l as [|a l IH]; intros dn x scl x' scl' I R j; cbn [scheme_args] in R.
  - now injection R as <- <-.
  - apply bind_ok in R as ([x1 scl1] & A & R). destruct (inv_wf _ _ I) as [W CP]. apply scheme_arg_ok in A as (A & LR & e & AD); auto.
    rewrite (IH (dn ++ [(kk x, a)]) _ _ _ _ ltac:(eapply inv_astep; eauto) R j). eapply astep_gs; eauto.
Qed.
Lemma schemes_gs l : forall dn x x', inv dn x -> schemes_analyze compat host x l = Ok x' ->
  (exists scls, gs x' (kk x) = gs x (kk x) ++ scls /\ Forall2 (added d_empty) l scls) /\ (forall j, j <> kk x -> gs x' j = gs x j).
Proof.
  induction l as [|sch l IH]; intros dn x x' I R; cbn [schemes_analyze] in R.
  - injection R as <-. split; auto. exists []. rewrite app_nil_r. auto.
  - apply bind_ok in R as (x1 & A & R). unfold scheme_analyze in A. apply bind_ok in A as ([x2 scl] & A & B). injection B as <-.
    destruct (ind_args (fun _ _ => True) ltac:(auto) _ _ _ _ _ _ I Logic.I A) as (A1 & _ & A3 & A4).
    pose proof (args_gs _ _ _ _ _ _ I A) as G.
    change (schemes_analyze compat host (end_scheme x2 scl) l = Ok x') in R.
    destruct (IH _ _ _ (inv_end_scheme _ _ scl A1) R) as [(scls & E & F) O]. change (kk (end_scheme x2 scl)) with (kk x2) in *. rewrite A3 in *.
    assert (E1 : gs (end_scheme x2 scl) (kk x) = gs x (kk x) ++ [scl]).
    { rewrite <- (G (kk x)). unfold gs. change (kk (end_scheme x2 scl)) with (kk x2). now rewrite A3, Nat.eqb_refl. }
    split.
    + exists (scl :: scls). rewrite E, E1, <- app_assoc. split; auto.
    + intros j J. rewrite (O j J), <- (G j). unfold gs. change (kk (end_scheme x2 scl)) with (kk x2). rewrite A3. destruct (Nat.eqb_spec j (kk x)); [contradiction|reflexivity].
Qed.
Lemma gs_end x run j : gs (end_group x run) j = gs x j.
Proof.
  unfold gs. rewrite kk_end. destruct (Nat.eqb_spec j (S (kk x))) as [->|N].
  - destruct (Nat.eqb_spec (S (kk x)) (kk x)); [lia|]. unfold ps. rewrite (proj2 (nth_error_None _ _)); [reflexivity|unfold kk; lia].
  - unfold ps, end_group. cbn [s_past]. destruct (Nat.eqb_spec j (kk x)) as [->|N2].
    + rewrite nth_error_app2 by (unfold kk; lia). unfold kk. now rewrite Nat.sub_diag.
    + destruct (Nat.lt_ge_cases j (length (s_past x))).
      * now rewrite nth_error_app1.
      * rewrite !(proj2 (nth_error_None _ _)); auto. rewrite app_length. cbn. unfold kk in *. lia.
Qed.
Lemma groups_gs l : forall dn x gsl su so, inv dn x -> (exists run, s_cur x = new_group run) ->
  groups_analyze compat host (s_past x) (s_suite x) (s_sopt x) (s_gvars x) l = Ok (gsl, su, so) ->
  (forall j, j < kk x -> ps gsl j = gs x j) /\ (forall j run schemes, nth_error l j = Some (run, schemes) -> Forall2 (added d_empty) schemes (ps gsl (kk x + j))).
Proof.
  induction l as [|[run schemes] l IH]; intros dn x gsl su so I NG R; cbn [groups_analyze] in R.
  - injection R as <- <- <-. split; [|intros [|j] ? ? H; discriminate]. intros j J. unfold gs. destruct (Nat.eqb_spec j (kk x)); [lia|reflexivity].
  - apply bind_ok in R as (x1 & A & R). change (mkSt (s_past x) (new_group run) (s_suite x) (s_sopt x) (s_gvars x)) with (set_cur x (new_group run)) in A.
    assert (I' : inv dn (set_cur x (new_group run))) by (destruct NG as [r NG]; destruct I; rewrite NG in *; constructor; auto; cbn [s_cur set_cur]; try apply new_group_keys; intros j s; unfold gd, gc in *; cbn [s_past s_cur set_cur kk] in *; rewrite NG in *; eauto).
    destruct (schemes_gs _ _ _ _ I' A) as [(scls & E & F) O]. change (kk (set_cur x (new_group run))) with (kk x) in *.
    destruct (ind_schemes (fun _ _ => True) ltac:(auto) ltac:(auto) _ _ _ _ I' Logic.I A) as (A1 & _ & A3). change (kk (set_cur x (new_group run))) with (kk x) in *.
    assert (CG : gs (set_cur x (new_group run)) (kk x) = []) by (unfold gs; change (kk (set_cur x (new_group run))) with (kk x); now rewrite Nat.eqb_refl).
    rewrite CG in E. cbn [app] in E.
    destruct (IH _ (end_group x1 run) gsl su so (inv_end_group _ _ _ A1) ltac:(now exists run) R) as [B1 B2]. rewrite kk_end, A3 in *. split.
    + intros j J. rewrite B1, gs_end, O by lia. unfold gs. change (kk (set_cur x (new_group run))) with (kk x). destruct (Nat.eqb_spec j (kk x)); [lia|reflexivity].
    + intros [|j] r sc H; cbn [nth_error] in H.
      * injection H as <- <-. rewrite Nat.add_0_r, B1, gs_end, E by lia. exact F.
      * rewrite <- Nat.add_succ_comm. eauto.
Qed.
End Step.

(* ---- arguments of the suite in order ---- *)
Lemma in_args_from sdf : forall k j a, In (j, a) (args_from k sdf) <-> exists i run schemes, j = k + i /\ nth_error sdf i = Some (run, schemes) /\ In a (List.concat schemes).
Proof.
  unfold args_from. induction sdf as [|[run schemes] sdf IH]; intros k j a; cbn [number flat_map].
  - split; [intros []|]. intros ([|i] & r & sc & _ & H & _); discriminate.
  - rewrite in_app_iff, IH. cbn [fst snd]. split.
    + intros [H|(i & r & sc & -> & H1 & H2)].
      * apply in_map_iff in H as (b & [= <- <-] & H). exists 0, run, schemes. rewrite Nat.add_0_r. auto.
      * exists (S i), r, sc. rewrite Nat.add_succ_r. auto.
    + intros ([|i] & r & sc & -> & H1 & H2); cbn [nth_error] in H1.
      * injection H1 as <- <-. left. rewrite Nat.add_0_r. apply in_map_iff. eauto.
      * right. exists i, r, sc. rewrite Nat.add_succ_r. auto.
Qed.
Lemma uses_usedD sdf k s : uses sdf k s <-> usedD (in_order_args sdf) k s.
Proof.
  unfold uses, usedD. change (in_order_args sdf) with (args_from 0 sdf). split.
  - intros (run & schemes & sch & a & H1 & H2 & H3 & H4). exists a. split; auto. apply in_args_from. exists k, run, schemes. repeat split; auto.
    apply in_concat. eauto.
  - intros (a & H & E). apply in_args_from in H as (i & run & schemes & -> & H1 & H2). apply in_concat in H2 as (sch & H2 & H3).
    exists run, schemes, sch, a. auto.
Qed.
Lemma uses_of_args sdf s : forall k j, uses_of (args_from k sdf) (k + j) s =
  match nth_error sdf j with Some (_, schemes) => map intent_of (List.filter (fun a => str_eqb (a_std a) s) (List.concat schemes)) | None => [] end.
Proof.
  unfold uses_of, args_from. induction sdf as [|[run schemes] sdf IH]; intros k j; cbn [number flat_map fst snd].
  - now destruct j.
  - rewrite filter_app, map_app.
    assert (E : forall m l, map (fun p => intent_of (snd p)) (List.filter (fun p => (fst p =? k + m) && str_eqb (a_std (snd p)) s) (map (fun a : arg => (k, a)) l)) =
                if m =? 0 then map intent_of (List.filter (fun a => str_eqb (a_std a) s) l) else []).
    { intros m l. induction l as [|a l IHl]; cbn [map List.filter fst snd]; [now destruct (m =? 0)|].
      destruct (Nat.eqb_spec k (k + m)); destruct (Nat.eqb_spec m 0); try lia; cbn [andb]; auto. destruct (str_eqb (a_std a) s); cbn [map snd]; now rewrite IHl. }
    rewrite E. destruct j as [|j]; cbn [nth_error Nat.eqb].
    + rewrite Nat.add_0_r.
      assert (Z : List.filter (fun p => (fst p =? k) && str_eqb (a_std (snd p)) s) (flat_map (fun kg : nat * (bool * list (list arg)) => map (fun a => (fst kg, a)) (List.concat (snd (snd kg)))) (number (S k) sdf)) = []).
      { destruct (List.filter _ _) as [|[q b] l] eqn:F; auto. exfalso.
        assert (I : In (q, b) (List.filter (fun p => (fst p =? k) && str_eqb (a_std (snd p)) s) (args_from (S k) sdf))) by (unfold args_from; rewrite F; now left).
        apply filter_In in I as [I Q]. apply in_args_from in I as (i & _ & _ & -> & _). apply andb_prop in Q as [Q _]. cbn [fst] in Q. apply Nat.eqb_eq in Q. lia. }
      rewrite Z. apply app_nil_r.
    + cbn [app]. rewrite <- Nat.add_succ_comm. apply IH.
Qed.
Lemma holds_get d s : holds d s <-> get s (d_vars d) <> None.
Proof.
  unfold holds. split.
  - intros (v & H) N. apply get_none in N. apply N. change s with (fst (s, v)). now apply in_map.
  - intros H. destruct (get s (d_vars d)) as [v|] eqn:E; [|congruence]. apply get_in in E. eauto.
Qed.
Lemma added_in compat l : forall d scl, added compat d l scl -> forall s v, In (s, v) (d_vars scl) -> (exists w, In (s, w) (d_vars d)) \/ exists a, In a l /\ a_std a = s.
Proof.
  induction l as [|a l IH]; intros d scl A s v H; inversion A as [|? ? e d' ? ? AV A']; subst; [eauto|].
  destruct (IH _ _ A' s v H) as [(w & K)|(b & K1 & K2)]; [|right; exists b; split; [now right|auto]].
  pose proof (add_variable_cases compat d (with_intent (a_var a)) e false true) as C. rewrite AV in C.
  destruct C as (_ & _ & d1 & v' & CK & V1 & _ & _ & _ & DV & _). rewrite with_intent_std in *. change (x_std (a_var a)) with (a_std a) in *.
  assert (K1 : In (s, w) (d_vars d1) \/ s = a_std a).
  { rewrite DV in K. destruct (get (a_std a) (d_vars d1)); auto. apply in_app_iff in K as [K|[[= -> _]|[]]]; auto. }
  destruct K1 as [K1| ->]; [|right; exists a; split; [now left|auto]].
  destruct CK as [|c c' F AI N]; [eauto|]. cbn [d_vars] in K1. apply set_in in K1 as [[= -> _]|K1]; eauto.
  right. exists a. rewrite with_intent_std. split; [now left|reflexivity].
Qed.
