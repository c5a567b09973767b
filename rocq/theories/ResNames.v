(* ResNames.v: Fortran names of the variables of a group, and success of the analysis. *)
From Verif Require Import PyStr PyNum Base CompatModel ReqModel ReqProofs DictModel DictSpec DictProofs ResModel ResSpec ResProofs.
Open Scope nat_scope.
Open Scope list_scope.

Definition err_locals : list (str * str) := [(L "errflg", L "ccpp_error_code"); (L "errmsg", L "ccpp_error_message")].
Definition consistent (dn : list (nat * arg)) : Prop :=
  (forall j a j' b, In (j, a) dn -> In (j', b) dn -> lower (x_local (a_var a)) = lower (x_local (a_var b)) -> a_std a = a_std b) /\
  (forall j a l s, In (j, a) dn -> In (l, s) err_locals -> lower (x_local (a_var a)) = l -> a_std a = s).
Definition no_subst (host : list hvar) (dn : list (nat * arg)) : Prop :=
  forall j a, In (j, a) dn -> In (a_std a) (map fst loop_substs) -> provided host (a_std a).
Lemma consistent_app dn dn' : consistent (dn ++ dn') -> consistent dn.
Proof. intros [A B]. split; intros; [eapply A|eapply B]; eauto; apply in_app_iff; eauto. Qed.
Lemma no_subst_app host dn dn' : no_subst host (dn ++ dn') -> no_subst host dn.
Proof. intros A j a I. apply (A j a). apply in_app_iff. auto. Qed.

Definition from (dn : list (nat * arg)) (s : str) (v : var) : Prop := exists j a, In (j, a) dn /\ a_std a = s /\ x_local v = x_local (a_var a) /\ x_prot v = x_prot (a_var a).
Definition lreg (dn : list (nat * arg)) (d : dict) : Prop := forall l s, In (l, s) (d_locals d) ->
  (exists j a, In (j, a) dn /\ a_std a = s /\ lower (x_local (a_var a)) = l) \/ In (l, s) err_locals.
Lemma from_app dn dn' s v : from dn s v -> from (dn ++ dn') s v.
Proof. intros (j & a & I & E). exists j, a. rewrite in_app_iff. auto. Qed.
Lemma lreg_app dn dn' d : lreg dn d -> lreg (dn ++ dn') d.
Proof. intros H l s I. destruct (H l s I) as [(j & a & J & E)|E]; auto. left. exists j, a. rewrite in_app_iff. auto. Qed.

Lemma add_names compat d v e g a d' u : add_variable compat d v e g a = (d', Ok u) -> x_std v <> const_one -> keys_ok d -> no_stale d ->
  (forall t, In (lower (x_local v), t) (d_locals d) -> t = x_std v) ->
  no_stale d' /\ (d_locals d' = d_locals d \/ d_locals d' = d_locals d ++ [(lower (x_local v), x_std v)]) /\
  (forall s w, get s (d_vars d') = Some w -> (exists w0, get s (d_vars d) = Some w0 /\ x_local w = x_local w0 /\ x_prot w = x_prot w0) \/
     s = x_std v /\ get s (d_vars d) = None /\ x_local w = x_local v /\ x_prot w = x_prot v).
Proof.
  intros H C K NS LR.
  assert (N : no_stale d'). { pose proof (no_stale_add compat d v e g a NS K) as N. now rewrite H in N. }
  split; auto. split.
  - pose proof (add_variable_cases compat d v e g a) as X. rewrite H in X. destruct X as (_ & _ & d1 & v' & CK & _ & _ & _ & _ & _ & DL).
    rewrite DL, (checked_locals _ _ _ _ CK). destruct (get (lower (x_local v)) (d_locals d)); auto.
  - apply add_ok in H as (_ & O & E); auto. intros s w G. destruct (str_eqb s (x_std v)) eqn:Q.
    + apply str_eqb_eq in Q. subst s. destruct (get (x_std v) (d_vars d)) as [c|] eqn:GC.
      * destruct E as (_ & _ & w' & E & (_ & SL & SP) & _). rewrite E in G. injection G as <-. left. exists c. auto.
      * destruct E as (w' & E & _ & _ & _ & EP & EL). rewrite E in G. injection G as <-. right. split; auto. split; auto. split; auto.
        destruct EL as [[EL _]|[_ EL]]; auto. exfalso. destruct (get (lower (x_local v)) (d_locals d)) as [t|] eqn:GL; [|congruence].
        apply get_in in GL. pose proof (NS _ _ GL) as F. apply LR in GL. subst t. rewrite find_present in F by auto. contradiction.
    + apply str_eqb_neq in Q. rewrite O in G by auto. left. eauto.
Qed.

Definition fromE (dn : list (nat * arg)) (s : str) (v : var) : Prop := from dn s v \/ In (lower (x_local v), s) err_locals /\ x_prot v = false.
Lemma local_ok dn d k a : consistent (dn ++ [(k, a)]) -> lreg dn d -> forall t, In (lower (x_local (a_var a)), t) (d_locals d) -> t = a_std a.
Proof.
  intros [C1 C2] LR t I. assert (K : In (k, a) (dn ++ [(k, a)])) by (apply in_app_iff; right; now left).
  destruct (LR _ _ I) as [(j & b & J & E & F)|E].
  - subst t. apply (C1 j b k a); auto. apply in_app_iff. auto.
  - symmetry. eapply C2; eauto.
Qed.
Lemma from_local_ok dn d s v : consistent dn -> from dn s v -> lreg dn d -> forall t, In (lower (x_local v), t) (d_locals d) -> t = s.
Proof.
  intros [C1 C2] (k & a & K & <- & L1 & _) LR t I. rewrite L1 in I.
  destruct (LR _ _ I) as [(j & b & J & E & F)|E].
  - subst t. eapply C1; eauto.
  - symmetry. eapply C2; eauto.
Qed.
Lemma lreg_add dn d d' k a : lreg dn d -> (d_locals d' = d_locals d \/ d_locals d' = d_locals d ++ [(lower (x_local (a_var a)), a_std a)]) ->
  lreg (dn ++ [(k, a)]) d'.
Proof.
  intros H [E|E] l s I; rewrite E in I.
  - now apply (lreg_app dn [(k, a)] d H).
  - apply in_app_iff in I as [I|[[= <- <-]|[]]]; [now apply (lreg_app dn [(k, a)] d H)|]. left. exists k, a. split; auto. apply in_app_iff. right. now left.
Qed.
Lemma no_stale_set d s v : no_stale d -> no_stale (mkD (set s v (d_vars d)) (d_locals d)).
Proof.
  intros N l t I. apply N in I. unfold find_variable in *. destruct (str_eqb t const_one); auto. cbn [d_vars]. rewrite get_set. destruct (str_eqb t s); [discriminate|auto].
Qed.

Section Names.
Context (compat : var -> var -> bool) (host : list hvar).
Record named (dn : list (nat * arg)) (x : st) : Prop := {
  n_d : forall j s v, get s (gd x j) = Some v -> from dn s v;
  n_c : forall j s v, get s (gc x j) = Some v -> fromE dn s v;
  n_s : forall s v, get s (sv x) = Some v -> from dn s v;
  n_ld : lreg dn (g_dict (s_cur x)); n_lc : lreg dn (g_call (s_cur x)); n_ls : lreg dn (s_suite x);
  n_sd : no_stale (g_dict (s_cur x)); n_sc : no_stale (g_call (s_cur x)); n_ss : no_stale (s_suite x);
  n_len : length (d_locals (g_call (s_cur x))) <= 2 + length dn }.
Definition Pname (dn : list (nat * arg)) (x : st) : Prop := consistent dn -> no_subst host dn -> named dn x.
Lemma Pname_arg dn x a x' : inv host dn x -> Pname dn x -> astep compat host x a x' -> Pname (dn ++ [(kk x, a)]) x'.
Proof.
  intros I P A CS NSU. specialize (P (consistent_app _ _ CS) (no_subst_app _ _ _ NSU)). destruct P as [ND NC NV LD LC LS SD SC SS LN].
  assert (IN : In (kk x, a) (dn ++ [(kk x, a)])) by (apply in_app_iff; right; now left).
  assert (FE : forall s v, fromE dn s v -> fromE (dn ++ [(kk x, a)]) s v) by (intros s v [H|H]; [left; now apply from_app|now right]).
  assert (LEN : length dn <= length (dn ++ [(kk x, a)])) by (rewrite app_length; lia).
  assert (LEN2 : length (dn ++ [(kk x, a)]) = S (length dn)) by (rewrite app_length; cbn; lia).
  destruct A as [A|i g v d u AB HF GG ML NE GV AV|h d u gv gv' AB HF OP LR AV GD AI|d o names prefix n dd lo u AB HF NG R LS' CE DN RQ AV|d u AB HF NG OD AV].
  - constructor; eauto using from_app, lreg_app. lia.
  - assert (IL : i < length (s_past x)) by (apply nth_error_Some; congruence).
    pose proof (i_past _ _ _ I _ _ NE) as [KG KC]. pose proof (get_in _ _ _ GV) as VS. apply KG in VS.
    assert (FV : from dn (a_std a) v). { apply (ND i). rewrite gd_lt by (unfold kk; lia). unfold pd. now rewrite NE. }
    pose proof (add_names _ _ _ _ _ _ _ _ AV ltac:(rewrite VS; apply AB) (i_suitek _ _ _ I) SS ltac:(intros t; rewrite VS; now apply (from_local_ok dn _ _ _ (consistent_app _ _ CS)))) as (N1 & N2 & N3).
    rewrite VS in *. constructor; cbn [s_past s_cur s_suite]; eauto using lreg_app.
    + intros j s w G. apply from_app. apply (ND j). unfold gd, kk in *. cbn [s_past s_cur] in G. rewrite upd_length in G. destruct (j =? length (s_past x)); auto.
      unfold pd in *. rewrite nth_upd in G by auto. destruct (Nat.eqb_spec j i) as [->|]; auto. cbn [g_dict remove_variable d_vars] in G. rewrite get_del in G by apply KG.
      rewrite NE. destruct (str_eqb s (a_std a)); [discriminate|auto].
    + intros j s w G. apply FE, (NC j). unfold gc, kk in *. cbn [s_past s_cur] in G. rewrite upd_length in G. destruct (j =? length (s_past x)); auto.
      unfold pc in *. rewrite nth_upd in G by auto. destruct (Nat.eqb_spec j i) as [->|]; auto. now rewrite NE.
    + intros s w G. unfold sv in G. cbn [s_suite] in G. apply from_app. apply N3 in G as [(w0 & G & E1 & E2)|(-> & _ & E1 & E2)].
      * apply NV in G as (j & b & B1 & B2 & B3 & B4). exists j, b. rewrite E1, E2. auto.
      * destruct FV as (j & b & B1 & B2 & B3 & B4). exists j, b. rewrite E1, E2. auto.
    + destruct FV as (j & b & B1 & B2 & B3 & B4). intros l s H. destruct N2 as [N2|N2]; rewrite N2 in H; [now apply (lreg_app dn _ _ LS)|].
      apply in_app_iff in H as [H|[[= <- <-]|[]]]; [now apply (lreg_app dn _ _ LS)|]. left. exists j, b. rewrite B3. split; [apply in_app_iff; auto|auto].
    + lia.
  - assert (WL : x_local (with_intent (a_var a)) = x_local (a_var a) /\ x_prot (with_intent (a_var a)) = x_prot (a_var a)) by (unfold with_intent; now destruct (x_intent (a_var a))).
    destruct WL as [WL WP].
    pose proof (add_names _ _ _ _ _ _ _ _ AV ltac:(rewrite with_intent_std; apply AB) (i_ck _ _ _ I) SC ltac:(intros t; rewrite with_intent_std, WL; now apply (local_ok dn _ _ _ CS))) as (N1 & N2 & N3).
    rewrite with_intent_std, WL, WP in *. change (x_std (a_var a)) with (a_std a) in *.
    constructor; cbn [set_cur s_past s_cur s_suite with_call g_dict g_call d_locals]; eauto using from_app, lreg_app, no_stale_set.
    + intros j s w G. unfold gc in G. change (kk (set_cur x _)) with (kk x) in G. destruct (Nat.eqb_spec j (kk x)) as [->|N].
      * cbn [set_cur s_cur with_call g_call d_vars] in G. rewrite get_set in G.
        assert (OK : forall w, get s (d_vars d) = Some w -> fromE (dn ++ [(kk x, a)]) s w).
        { intros w1 G1. apply N3 in G1 as [(w0 & G1 & E1 & E2)|(-> & _ & E1 & E2)].
          - assert (G2 : get s (gc x (kk x)) = Some w0) by (unfold gc; now rewrite Nat.eqb_refl). apply NC in G2 as [(j & b & B1 & B2 & B3 & B4)|[B1 B2]].
            + left. exists j, b. rewrite E1, E2. split; [apply in_app_iff; auto|auto].
            + right. now rewrite E1, E2.
          - left. exists (kk x), a. auto. }
        destruct (str_eqb s (a_std a)) eqn:Q; [|auto]. apply str_eqb_eq in Q. subst s. injection G as <-. apply OK in GD. destruct (adjust_same _ _ _ AI) as [(_ & SL & SP) _].
        destruct GD as [(j & b & B1 & B2 & B3 & B4)|[B1 B2]]; [left; exists j, b; rewrite SL, SP; auto|right; now rewrite SL, SP].
      * apply FE, (NC j). unfold gc. destruct (Nat.eqb_spec j (kk x)); [contradiction|exact G].
    + intros l s H. cbn [d_locals] in H. apply (lreg_add dn (g_call (s_cur x)) d (kk x) a LC N2 l s H).
    + destruct N2 as [N2|N2]; rewrite N2; rewrite ?app_length; cbn [length]; lia.
  - exfalso. apply host_find_none in HF. apply HF. apply (NSU (kk x) a IN). apply get_in in LS'. change (a_std a) with (fst (a_std a, (names, prefix))). now apply in_map.
  - pose proof (add_names _ _ _ _ _ _ _ _ AV ltac:(apply AB) (i_dk _ _ _ I) SD ltac:(cbn [x_std x_local]; now apply (local_ok dn _ _ _ CS))) as (N1 & N2 & N3). cbn [x_std x_local x_prot] in *.
    constructor; cbn [set_cur s_past s_cur s_suite with_dict g_dict g_call d_locals]; eauto using from_app, lreg_app, no_stale_set.
    + intros j s w G. unfold gd in G. change (kk (set_cur x _)) with (kk x) in G. destruct (Nat.eqb_spec j (kk x)) as [->|N].
      * cbn [set_cur s_cur with_dict g_dict] in G. apply N3 in G as [(w0 & G & E1 & E2)|(-> & _ & E1 & E2)].
        -- assert (G2 : get s (gd x (kk x)) = Some w0) by (unfold gd; now rewrite Nat.eqb_refl). apply ND in G2 as (j & b & B1 & B2 & B3 & B4). exists j, b. rewrite E1, E2. split; [apply in_app_iff; auto|auto].
        -- exists (kk x), a. auto.
      * apply from_app, (ND j). unfold gd. destruct (Nat.eqb_spec j (kk x)); [contradiction|exact G].
    + apply (lreg_add dn (g_dict (s_cur x)) d (kk x) a LD N2).
    + lia.
Qed.
Lemma Pname_scheme dn x scl : Pname dn x -> Pname dn (end_scheme x scl).
Proof. intros P C N. destruct (P C N). now constructor. Qed.
Lemma new_group_named run s v : get s (d_vars (g_call (new_group run))) = Some v -> In (lower (x_local v), s) err_locals /\ x_prot v = false.
Proof.
  cbn [new_group g_call d_vars get]. destruct (str_eqb s (x_std err_code)) eqn:E; [apply str_eqb_eq in E; subst; intros [= <-]; vm_compute; auto|].
  destruct (str_eqb s (x_std err_msg)) eqn:E2; [apply str_eqb_eq in E2; subst; intros [= <-]; vm_compute; auto|discriminate].
Qed.
Lemma new_group_stale run : no_stale (g_call (new_group run)).
Proof. intros l s H. cbn [new_group g_call d_locals] in H. destruct H as [[= <- <-]|[[= <- <-]|[]]]; vm_compute; discriminate. Qed.
Lemma empty_stale : no_stale d_empty.
Proof. intros l s []. Qed.
Lemma new_group_lreg dn run : lreg dn (g_call (new_group run)).
Proof. intros l s H. right. cbn [new_group g_call d_locals] in H. destruct H as [[= <- <-]|[[= <- <-]|[]]]; vm_compute; auto. Qed.
Lemma Pname_group dn x run : inv host dn x -> Pname dn x -> Pname dn (end_group x run).
Proof.
  intros I P C N. destruct (P C N) as [ND NC NV LD LC LS SD SC SS LN]. constructor; auto.
  - intros j s v. rewrite gd_end. apply ND.
  - intros j s v. rewrite gc_end. destruct (j =? S (kk x)); [intros G; right; eapply new_group_named; eauto|apply NC].
  - intros l s [].
  - apply new_group_lreg.
  - apply empty_stale.
  - apply new_group_stale.
  - cbn. lia.
Qed.
Lemma Pname_start run : Pname [] (mkSt [] (new_group run) d_empty [] []).
Proof.
  intros _ _. constructor; cbn [s_cur s_suite].
  - intros [|j] s v; unfold gd, pd; cbn; [discriminate|destruct j; discriminate].
  - intros [|j] s v; unfold gc, pc; cbn [kk s_past length Nat.eqb s_cur nth_error]; [intros G; right; eapply new_group_named; eauto|discriminate].
  - intros s v. discriminate.
  - intros l s [].
  - apply new_group_lreg.
  - intros l s [].
  - apply empty_stale.
  - apply new_group_stale.
  - apply empty_stale.
  - cbn. lia.
Qed.
End Names.

(* ---- success ---- *)
Lemma adjust_total c v : x_prot c = false -> exists w, adjust_intent c v = Ok w.
Proof. intros P. unfold adjust_intent. rewrite P, andb_false_r. destruct (x_intent c); eauto. Qed.
Lemma add_total compat d v e g a : (forall c w, compat c w = true) -> x_std v <> const_one -> keys_ok d -> no_stale d ->
  (forall t, In (lower (x_local v), t) (d_locals d) -> t = x_std v) ->
  (get (x_std v) (d_vars d) = None \/ e = true /\ a = true /\ forall c, get (x_std v) (d_vars d) = Some c -> x_prot c = false) ->
  (g = false \/ fuel_of d (x_local v) < 10 ^ max_len) -> exists d', add_variable compat d v e g a = (d', Ok tt).
Proof.
  intros CT C K NS LR PR FU. unfold add_variable. cbv zeta.
  assert (AR : forall d1, no_stale d1 -> exists q, (match array_of (x_local v) with Some a => find_local_name d1 a | None => Ok None end) = Ok q).
  { intros d1 N1. destruct (array_of (x_local v)); [now apply find_local_ok|eauto]. }
  destruct (get (x_std v) (d_vars d)) as [c|] eqn:G.
  - destruct PR as [PR|(-> & -> & PR)]; [discriminate|]. cbn [negb andb]. specialize (PR c eq_refl).
    assert (CE : exists d1, check_existing compat d v true = (d1, Ok tt) /\ d_locals d1 = d_locals d /\ no_stale d1 /\ get (x_std v) (d_vars d1) <> None).
    { unfold check_existing. rewrite (find_present _ _ C), G, CT. destruct (intent_eqb (x_intent c) (x_intent v)); [exists d; rewrite G; split; [auto|split; [auto|split; [auto|discriminate]]]|].
      match goal with |- context[if ?b then _ else (d, Ok tt)] => destruct b end; [|exists d; rewrite G; split; [auto|split; [auto|split; [auto|discriminate]]]].
      destruct (adjust_total c v PR) as [w ->]. eexists. split; [reflexivity|]. split; [reflexivity|]. split; [now apply no_stale_set|]. cbn [d_vars]. rewrite get_set, str_eqb_refl. discriminate. }
    destruct CE as (d1 & -> & DL & N1 & G1). unfold resolve_local. destruct (find_local_ok d1 (x_local v) N1) as [r R]. rewrite R. cbn [bind].
    destruct (AR d1 N1) as [q Q]. rewrite Q. destruct r as [lv|]; [|cbn [bind]; eauto]. destruct g; [|cbn [bind]; eauto].
    destruct FU as [FU|FU]; [discriminate|]. assert (FE : fuel_of d1 (x_local v) = fuel_of d (x_local v)) by (unfold fuel_of; now rewrite DL).
    destruct (new_name_total d1 (x_local v)) as [n NN]; [now rewrite FE|]. rewrite NN. cbn [bind]. eauto.
  - cbn [andb]. unfold check_existing. rewrite (find_present _ _ C), G. unfold resolve_local, find_local_name at 1.
    destruct (get (lower (x_local v)) (d_locals d)) as [t|] eqn:GL.
    + exfalso. apply get_in in GL. pose proof (NS _ _ GL) as F. apply LR in GL. subst t. rewrite find_present in F by auto. contradiction.
    + cbn [bind]. destruct (AR d NS) as [q Q]. rewrite Q. cbn [bind]. eauto.
Qed.
Lemma add_total_absent compat d v e a : (forall c w, compat c w = true) -> x_std v <> const_one -> keys_ok d -> no_stale d ->
  (forall t, In (lower (x_local v), t) (d_locals d) -> t = x_std v) -> get (x_std v) (d_vars d) = None ->
  exists d', add_variable compat d v e false a = (d', Ok tt).
Proof. intros. apply add_total; [assumption|assumption|assumption|assumption|assumption|left; assumption|left; reflexivity]. Qed.

Section Total.
Context (compat : var -> var -> bool) (host : list hvar) (all : list (nat * arg)) (isrun : nat -> bool).
Hypothesis CT : forall c w, compat c w = true.
Hypothesis CONS : consistent all.
Hypothesis NCONST : forall j a, In (j, a) all -> a_std a <> const_one.
Hypothesis NPROT : forall j a, In (j, a) all -> x_prot (a_var a) = false.
Hypothesis LEN : forall j a, In (j, a) all -> length (x_local (a_var a)) <= 63.
Hypothesis NUM : length all <= 10 ^ 50.
Hypothesis COND : forall j a h, In (j, a) all -> In h host -> h_std h = a_std a -> h_always h = true \/ a_opt a = true.
Hypothesis LOOP : forall j a, In (j, a) all -> In (a_std a) loop_names -> provided host (a_std a) /\ isrun j = true.
Hypothesis SUBST : no_subst host all.
Hypothesis DEF : forall l1 j a l2, all = l1 ++ (j, a) :: l2 -> ~ provided host (a_std a) -> (forall j' a', In (j', a') l1 -> a_std a' <> a_std a) ->
  x_intent (a_var a) = Some Out_ \/ a_default a = true.
Lemma fuel_small (d : dict) (l : str) (dn : list (nat * arg)) : length l <= 63 -> length (d_locals d) <= 2 + length dn -> length dn <= 10 ^ 50 -> fuel_of d l < 10 ^ max_len.
Proof.
  intros A B C. unfold fuel_of, max_len. unfold str in *. replace 63 with (50 + (3 + 10)) at 1 by reflexivity. rewrite !Nat.pow_add_r.
  assert (P1 : 1 <= 10 ^ 50) by (apply Nat.le_succ_l, Nat.neq_0_lt_0, Nat.pow_nonzero; discriminate).
  assert (P2 : 1 <= 10 ^ 10) by (apply Nat.le_succ_l, Nat.neq_0_lt_0, Nat.pow_nonzero; discriminate).
  assert (P3 : 1000 <= 10 ^ 3) by (apply Nat.eq_le_incl; reflexivity).
  remember (10 ^ 50) as N eqn:EN. clear EN. remember (10 ^ 10) as M eqn:EM. clear EM. remember (10 ^ 3) as K eqn:EK. clear EK.
  set (p := length l) in *. set (q := length (d_locals d)).
  assert (B' : q <= 2 + length dn) by exact B. clear B. rename B' into B.
  assert (S p * S q <= 64 * (3 + N)). { apply Nat.mul_le_mono; lia. }
  assert (1000 * 1 <= K * M) by (apply Nat.mul_le_mono; lia).
  assert (N * 1000 <= N * (K * M)) by (apply Nat.mul_le_mono_l; lia).
  assert (F : S p * S q + p < N * (K * M)) by lia. exact F.
Qed.
Definition scl_ok (dn : list (nat * arg)) (prev : list arg) (scl : dict) : Prop :=
  keys_ok scl /\ no_stale scl /\ lreg dn scl /\ forall s, get s (d_vars scl) <> None -> In s (map a_std prev).
Lemma arg_total dn x scl prev a rest : inv host dn x -> Pname host dn x -> all = dn ++ (kk x, a) :: rest -> isrun (kk x) = g_run (s_cur x) ->
  scl_ok dn prev scl -> ~ In (a_std a) (map a_std prev) ->
  exists x' scl', scheme_arg compat host x scl a = Ok (x', scl') /\ scl_ok (dn ++ [(kk x, a)]) (prev ++ [a]) scl'.
Proof.
  intros I P EA RUN (SK & SN & SL & SP) NI.
  assert (IN : In (kk x, a) all) by (rewrite EA; apply in_app_iff; right; now left).
  assert (CS : consistent (dn ++ [(kk x, a)])). { apply (consistent_app _ rest). rewrite <- app_assoc. cbn [app]. now rewrite <- EA. }
  assert (NSU : no_subst host (dn ++ [(kk x, a)])). { apply (no_subst_app _ _ rest). rewrite <- app_assoc. cbn [app]. now rewrite <- EA. }
  destruct (P (consistent_app _ _ CS) (no_subst_app _ _ _ NSU)) as [ND NC NV LD LC LS SD SC SS LN].
  destruct (inv_wf _ _ _ I) as [W CP]. set (s := a_std a) in *. pose proof (NCONST _ _ IN) as C. fold s in C.
  assert (WL : x_local (with_intent (a_var a)) = x_local (a_var a)) by (unfold with_intent; now destruct (x_intent (a_var a))).
  assert (LRUN : forall y, g_run (s_cur y) = g_run (s_cur x) -> (mem s loop_names && negb (g_run (s_cur y))) = false).
  { intros y Y. rewrite Y, <- RUN. destruct (mem s loop_names) eqn:M; auto. apply mem_in in M. destruct (LOOP _ _ IN M) as [_ ->]. reflexivity. }
  assert (SADD : forall y e, g_run (s_cur y) = g_run (s_cur x) -> exists scl', scheme_add compat y scl (a_var a) e = Ok scl' /\ scl_ok (dn ++ [(kk x, a)]) (prev ++ [a]) scl').
  { intros y e Y. unfold scheme_add. change (x_std (a_var a)) with s. rewrite (LRUN y Y).
    assert (GN : get s (d_vars scl) = None) by (destruct (get s (d_vars scl)) eqn:Q; auto; exfalso; apply NI, SP; congruence).
    destruct (add_total_absent compat scl (with_intent (a_var a)) e true CT) as [d AV]; rewrite ?with_intent_std, ?WL; auto.
    { now apply (local_ok dn _ _ _ CS). }
    rewrite AV. exists d. split; auto.
    pose proof (add_names _ _ _ _ _ _ _ _ AV ltac:(now rewrite with_intent_std) SK SN ltac:(intros t; rewrite with_intent_std, WL; now apply (local_ok dn _ _ _ CS))) as (N1 & N2 & N3).
    apply add_ok in AV as (K1 & _); [|now rewrite with_intent_std|auto]. rewrite with_intent_std, WL in *. change (x_std (a_var a)) with s in *. split; [auto|]. split; [auto|]. split.
    - apply (lreg_add dn scl d (kk x) a SL N2).
    - intros t T. rewrite map_app, in_app_iff. destruct (get t (d_vars d)) as [w|] eqn:G; [|congruence]. apply N3 in G as [(w0 & G & _)|(-> & _)]; [left; apply SP; congruence|right; now left]. }
  unfold scheme_arg, match_variable, find_up. fold s. rewrite (proj2 (str_eqb_neq _ _) C).
  assert (NCA : host_find host s = None -> get s (d_vars (g_call (s_cur x))) = None).
  { intros N. destruct (get s (d_vars (g_call (s_cur x)))) eqn:E; auto. destruct (CP s); congruence. }
  destruct (get s (d_vars (g_dict (s_cur x)))) as [v|] eqn:GD.
  { cbn [bind]. destruct (SADD x true eq_refl) as (scl' & -> & SO). cbn [bind]. unfold update_group. cbv zeta. change (x_std (a_var a)) with s. rewrite (proj2 (str_eqb_neq _ _) C), NCA by (apply (wf_l _ x W); congruence).
    rewrite (proj2 (has_true _ _)) by congruence. cbn [bind]. eauto. }
  unfold suite_find. rewrite (proj2 (str_eqb_neq _ _) C). destruct (get s (d_vars (s_suite x))) as [v|] eqn:GS.
  { cbn [bind]. destruct (SADD x true eq_refl) as (scl' & -> & SO). cbn [bind]. unfold update_group. cbv zeta. change (x_std (a_var a)) with s. rewrite (proj2 (str_eqb_neq _ _) C), NCA by (apply (wf_h _ x W); congruence).
    rewrite (proj2 (has_false _ _) GD). unfold find_up, suite_find. rewrite (proj2 (str_eqb_neq _ _) C), GD, GS. cbn [bind]. eauto. }
  destruct (host_find host s) as [h|] eqn:HF.
  { cbn [bind]. destruct (host_find_std _ _ _ HF) as [HS HI].
    replace (negb (a_opt a) && negb (h_always h)) with false by (destruct (COND _ _ h IN HI HS) as [-> | ->]; now rewrite ?andb_false_r).
    unfold tree_add. change (x_std (a_var a)) with s. rewrite (proj2 (str_eqb_neq _ _) C), (proj2 (has_false _ _) GD). cbn [orb]. rewrite andb_false_r.
    unfold group_add_call. cbv zeta. change (x_std (a_var a)) with s. rewrite (suite_find_false compat host x s W C GS) by eauto. cbn [bind]. rewrite (proj2 (has_false _ _) GD), (LRUN x eq_refl).
    assert (PR : forall c, get s (d_vars (g_call (s_cur x))) = Some c -> x_prot c = false).
    { intros c G. destruct (NC (kk x) s c) as [(j & b & B1 & B2 & B3 & ->)|[_ B]]; auto; [unfold gc; now rewrite Nat.eqb_refl|]. apply (NPROT j b). rewrite EA. apply in_app_iff. auto. }
    assert (DL : length dn <= 10 ^ 50) by (rewrite EA, app_length in NUM; lia).
    destruct (add_total compat (g_call (s_cur x)) (with_intent (a_var a)) true true true CT) as [d AV]; rewrite ?with_intent_std, ?WL.
    { exact C. }
    { apply (i_ck _ _ _ I). }
    { exact SC. }
    { now apply (local_ok dn _ _ _ CS). }
    { right. split; [reflexivity|]. split; [reflexivity|]. exact PR. }
    { right. apply (fuel_small _ _ dn); [now apply (LEN (kk x))|exact LN|exact DL]. }
    rewrite AV. cbn [bind]. destruct (SADD (set_cur x (with_call (s_cur x) d (note_opt s (a_opt a) (g_copt (s_cur x))))) true eq_refl) as (scl' & SA & SO). unfold with_call in SA. rewrite SA. cbn [bind].
    unfold update_group. cbv zeta. change (x_std (a_var a)) with s. rewrite (proj2 (str_eqb_neq _ _) C). cbn [s_cur set_cur g_call].
    pose proof (add_names _ _ _ _ _ _ _ _ AV ltac:(now rewrite with_intent_std) (i_ck _ _ _ I) SC ltac:(intros t; rewrite with_intent_std, WL; now apply (local_ok dn _ _ _ CS))) as (N1 & N2 & N3).
    apply add_ok in AV as (K1 & _ & E); [|now rewrite with_intent_std|apply (i_ck _ _ _ I)]. rewrite with_intent_std in *. change (x_std (a_var a)) with s in *.
    assert (G : exists gv, get s (d_vars d) = Some gv) by (destruct (get s (d_vars (g_call (s_cur x)))); [destruct E as (_ & _ & w & E & _)|destruct E as (w & E & _)]; eauto).
    destruct G as [gv G]. rewrite G.
    assert (GP : x_prot gv = false).
    { apply N3 in G as [(w0 & G & _ & ->)|(_ & _ & _ & ->)]; [eapply PR; eauto|]. unfold with_intent. destruct (x_intent (a_var a)); apply (NPROT _ _ IN). }
    destruct (adjust_total gv (a_var a) GP) as [gv' ->]. cbn [bind]. eauto. }
  assert (NP : ~ provided host s) by (now apply host_find_none).
  assert (ML : mem s loop_names = false). { destruct (mem s loop_names) eqn:M; auto. apply mem_in in M. destruct (LOOP _ _ IN M) as [Q _]. contradiction. }
  rewrite ML. destruct (get s (s_gvars x)) as [i|] eqn:GG.
  { destruct (i_g1 _ _ _ I s i GG) as [IL GI]. rewrite gd_lt in GI by auto. destruct (pd_some _ _ _ GI) as (g & NE & GV). rewrite NE. destruct (get s (d_vars (g_dict g))) as [v|] eqn:GV'; [|congruence].
    pose proof (i_past _ _ _ I _ _ NE) as [KG KC]. pose proof (get_in _ _ _ GV') as VS. apply KG in VS.
    assert (FV : from dn s v). { apply (ND i). rewrite gd_lt by auto. unfold pd. now rewrite NE. }
    destruct (add_total_absent compat (s_suite x) v false false CT) as [d AV]; rewrite ?VS; auto.
    { apply (i_suitek _ _ _ I). }
    { now apply (from_local_ok dn _ _ _ (consistent_app _ _ CS)). }
    rewrite AV. cbn [bind].
    match goal with |- context[scheme_add compat ?y scl (a_var a) true] => destruct (SADD y true eq_refl) as (scl' & -> & SO) end. cbn [bind].
    unfold update_group. cbv zeta. change (x_std (a_var a)) with s. cbn [s_cur]. rewrite (proj2 (str_eqb_neq _ _) C), NCA by auto. rewrite (proj2 (has_false _ _) GD).
    unfold find_up, suite_find. cbn [s_cur s_suite]. rewrite (proj2 (str_eqb_neq _ _) C), GD.
    apply add_ok in AV as (_ & _ & E); [|now rewrite VS|apply (i_suitek _ _ _ I)]. rewrite VS, GS in E. destruct E as (w & E & _). rewrite E. cbn [bind]. eauto. }
  cbn [bind]. unfold loop_subst.
  assert (LSN : get s loop_substs = None) by (apply get_none; intros Q; apply NP; apply (SUBST _ _ IN Q)).
  replace (if g_run (s_cur x) then get s loop_substs else None) with (@None (list str * str)) by (now destruct (g_run (s_cur x))). cbn [bind].
  assert (OD : x_intent (a_var a) = Some Out_ \/ a_default a = true).
  { apply (DEF dn (kk x) a rest EA NP). intros j' a' I' E'. assert (UU : usedD dn j' s) by (exists a'; auto).
    destruct (used_found host dn x j' s I UU C HF ML) as [K|[K|K]]; [congruence|unfold sv in K; congruence|congruence]. }
  assert (MG : exists x' scl', (x0 <- manage compat x a ;; scl0 <- scheme_add compat x0 scl (a_var a) false ;; Ok (x0, scl0)) = Ok (x', scl') /\ scl_ok (dn ++ [(kk x, a)]) (prev ++ [a]) scl').
  { unfold manage. cbv zeta. change (x_std (a_var a)) with s.
    destruct (add_total_absent compat (g_dict (s_cur x)) (mkV s (x_local (a_var a)) None (x_prot (a_var a))) true false CT) as [d AV]; cbn [x_std x_local]; auto.
    { apply (i_dk _ _ _ I). }
    { now apply (local_ok dn _ _ _ CS). }
    rewrite AV. cbn [bind]. match goal with |- context[scheme_add compat ?y scl (a_var a) false] => destruct (SADD y false eq_refl) as (scl' & -> & SO) end. cbn [bind]. eauto. }
  destruct MG as (x' & scl' & MG & SO). exists x', scl'. split; auto. destruct OD as [-> | ->]; [exact MG|]. destruct (x_intent (a_var a)) as [[]|]; exact MG.
Qed.
Context (HERR : forall s, In s error_names -> provided host s).
Lemma astep_run x a x' : astep compat host x a x' -> g_run (s_cur x') = g_run (s_cur x).
Proof. intros []; reflexivity. Qed.
Lemma args_total l : forall dn x scl prev rest, inv host dn x -> Pname host dn x -> all = dn ++ map (fun a => (kk x, a)) l ++ rest -> isrun (kk x) = g_run (s_cur x) ->
  scl_ok dn prev scl -> NoDup (map a_std (prev ++ l)) ->
  exists x' scl', scheme_args compat host x scl l = Ok (x', scl') /\ g_run (s_cur x') = g_run (s_cur x).
Proof.
  induction l as [|a l IH]; intros dn x scl prev rest I P EA RUN SO ND; cbn [scheme_args].
  - eauto.
  - cbn [map app] in EA. destruct (arg_total dn x scl prev a _ I P EA RUN SO) as (x1 & scl1 & R & SO1).
    { rewrite map_app in ND. cbn [map] in ND. apply NoDup_remove_2 in ND. rewrite in_app_iff in ND. tauto. }
    rewrite R. cbn [bind]. destruct (inv_wf _ _ _ I) as [W CP]. apply scheme_arg_ok in R as (A & _); auto. pose proof (astep_kk _ _ _ _ _ A) as K.
    destruct (IH (dn ++ [(kk x, a)]) x1 scl1 (prev ++ [a]) rest) as (x' & scl' & R & RN).
    + eapply inv_astep; eauto.
    + eapply Pname_arg; eauto.
    + rewrite EA, K, <- app_assoc. reflexivity.
    + rewrite K, (astep_run _ _ _ A). exact RUN.
    + exact SO1.
    + rewrite <- app_assoc. exact ND.
    + exists x', scl'. split; auto. rewrite RN. now apply (astep_run _ _ _ A).
Qed.
Lemma schemes_total l : forall dn x rest, inv host dn x -> Pname host dn x -> all = dn ++ map (fun a => (kk x, a)) (List.concat l) ++ rest -> isrun (kk x) = g_run (s_cur x) ->
  (forall sch, In sch l -> NoDup (map a_std sch)) -> exists x', schemes_analyze compat host x l = Ok x'.
Proof.
  induction l as [|sch l IH]; intros dn x rest I P EA RUN ND; cbn [schemes_analyze]; [eauto|].
  cbn [List.concat] in EA. rewrite map_app, <- app_assoc in EA.
  destruct (args_total sch dn x d_empty [] _ I P EA RUN) as (x1 & scl & R & RN).
  - split; [split; [constructor|intros s v []]|]. split; [apply empty_stale|]. split; [intros k s []|]. intros s H. cbn in H. congruence.
  - apply ND. left. reflexivity.
  - unfold scheme_analyze. rewrite R. cbn [bind].
    destruct (ind_args compat host (Pname host) ltac:(intros; eapply Pname_arg; eauto) sch _ _ _ _ _ I P R) as (A1 & A2 & A3 & A4).
    change (exists x', schemes_analyze compat host (end_scheme x1 scl) l = Ok x').
    apply (IH (dn ++ map (fun a => (kk x, a)) sch) (end_scheme x1 scl) rest).
    + now apply inv_end_scheme.
    + now apply Pname_scheme.
    + change (kk (end_scheme x1 scl)) with (kk x1). rewrite A3, <- app_assoc. exact EA.
    + change (kk (end_scheme x1 scl)) with (kk x1). rewrite A3. cbn [end_scheme set_cur s_cur g_run]. now rewrite RN.
    + intros sch' H. apply ND. right. exact H.
Qed.
Lemma groups_total l : forall dn x, inv host dn x -> (forall run, Pname host dn (set_cur x (new_group run))) -> (exists run, s_cur x = new_group run) ->
  all = dn ++ args_from (kk x) l -> (forall i run schemes, nth_error l i = Some (run, schemes) -> isrun (kk x + i) = run) ->
  (forall run schemes sch, In (run, schemes) l -> In sch schemes -> NoDup (map a_std sch)) ->
  exists r, groups_analyze compat host (s_past x) (s_suite x) (s_sopt x) (s_gvars x) l = Ok r.
Proof.
  induction l as [|[run schemes] l IH]; intros dn x I P NG EA RUN ND; cbn [groups_analyze]; [eauto|].
  change (mkSt (s_past x) (new_group run) (s_suite x) (s_sopt x) (s_gvars x)) with (set_cur x (new_group run)).
  assert (I' : inv host dn (set_cur x (new_group run))) by (destruct NG as [r NG]; destruct I; rewrite NG in *; constructor; auto; cbn [s_cur set_cur]; try apply new_group_keys; intros j s; unfold gd, gc in *; cbn [s_past s_cur set_cur kk] in *; rewrite NG in *; eauto).
  destruct (schemes_total schemes dn (set_cur x (new_group run)) (args_from (S (kk x)) l) I' (P run)) as (x1 & R).
  - exact EA.
  - change (kk (set_cur x (new_group run))) with (kk x). rewrite <- (Nat.add_0_r (kk x)). now apply (RUN 0 run schemes).
  - intros sch H. apply (ND run schemes sch); [left; reflexivity|exact H].
  - rewrite R. cbn [bind].
    destruct (ind_schemes compat host (Pname host) ltac:(intros; eapply Pname_arg; eauto) ltac:(intros; now apply Pname_scheme) schemes _ _ _ I' (P run) R) as (A1 & A2 & A3).
    change (kk (set_cur x (new_group run))) with (kk x) in *.
    apply (IH (dn ++ map (fun a => (kk x, a)) (List.concat schemes)) (end_group x1 run)).
    + now apply inv_end_group.
    + intros r. now apply (Pname_group host _ x1 r).
    + now exists run.
    + rewrite kk_end, A3, EA, <- app_assoc. reflexivity.
    + intros i r sc H. rewrite kk_end, A3, Nat.add_succ_comm. now apply (RUN (S i) r sc).
    + intros r sc sch H1 H2. apply (ND r sc sch); [right; exact H1|exact H2].
Qed.
End Total.
