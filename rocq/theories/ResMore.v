(* ResMore.v: further invariants: phases of loop variables, compatibility of the uses of a
   host variable, optional properties, argument order in the call lists of schemes. *)
From Verif Require Import PyStr PyNum Base CompatModel ReqModel ReqProofs DictModel DictSpec DictProofs ResModel ResSpec ResProofs.
Open Scope nat_scope.
Open Scope list_scope.

Section More.
Context (compat : var -> var -> bool) (host : list hvar).
Notation hfind := (host_find host).

(* --- run flags --- *)
Definition gr (x : st) := map g_run (s_past x) ++ [g_run (s_cur x)].
Lemma map_upd {A B} (f : A -> B) (y : A) : forall l i, (exists z, nth_error l i = Some z /\ f z = f y) -> map f (upd i y l) = map f l.
Proof.
  induction l as [|z l IH]; intros [|i] (w & E & F); cbn in *; try discriminate; auto.
  - injection E as ->. now rewrite F.
  - rewrite IH; eauto.
Qed.
Lemma astep_gr x a x' : astep compat host x a x' -> gr x' = gr x.
Proof.
  intros A. destruct A as [A|i g v d u AB HF GG ML NE GV AV|h d u gv gv' AB HF OP LR AV GD AI|d o names prefix n dd lo u AB HF NG R LS' CE DN RQ AV|d u AB HF NG OD AV]; try reflexivity.
  unfold gr. cbn [s_past s_cur]. rewrite map_upd; eauto.
Qed.
Definition Prun (runs : nat -> bool) (dn : list (nat * arg)) (x : st) : Prop :=
  (forall j b, nth_error (gr x) j = Some b -> b = true -> runs j = true).
Definition Ploops (dn : list (nat * arg)) (x : st) : Prop := forall j a, In (j, a) dn -> mem (a_std a) loop_names = true -> nth_error (gr x) j = Some true.
Lemma gr_kk x : nth_error (gr x) (kk x) = Some (g_run (s_cur x)).
Proof. unfold gr, kk. rewrite nth_error_app2 by (rewrite map_length; auto). now rewrite map_length, Nat.sub_diag. Qed.
Lemma Ploops_arg dn x a x' : Ploops dn x -> astep compat host x a x' -> (mem (a_std a) loop_names = true -> g_run (s_cur x) = true) -> Ploops (dn ++ [(kk x, a)]) x'.
Proof.
  intros P A R j b H M. rewrite (astep_gr _ _ _ A). apply in_app_iff in H as [H|[[= <- <-]|[]]]; [eauto|]. rewrite gr_kk, R; auto.
Qed.
Lemma gr_end x run : gr (end_group x run) = gr x ++ [run].
Proof. unfold gr, end_group. cbn [s_past s_cur]. now rewrite map_app. Qed.
Lemma Ploops_group dn x run : Ploops dn x -> Ploops dn (end_group x run).
Proof. intros P j a H M. rewrite gr_end. rewrite nth_error_app1; [eauto|]. apply nth_error_Some. rewrite (P j a H M). discriminate. Qed.
Lemma args_gr l : forall dn x scl x' scl', inv host dn x -> scheme_args compat host x scl l = Ok (x', scl') -> gr x' = gr x.
Proof.
  induction l as [|a l IH]; intros dn x scl x' scl' I R; cbn [scheme_args] in R.
  - now injection R as <- <-.
  - apply bind_ok in R as ([x1 scl1] & A & R). destruct (inv_wf _ _ _ I) as [W CP]. apply scheme_arg_ok in A as (A & LR & e & AD); auto.
    rewrite (IH (dn ++ [(kk x, a)]) _ _ _ _ ltac:(eapply inv_astep; eauto) R). eapply astep_gr; eauto.
Qed.
Lemma schemes_gr l : forall dn x x', inv host dn x -> schemes_analyze compat host x l = Ok x' -> gr x' = gr x.
Proof.
  induction l as [|sch l IH]; intros dn x x' I R; cbn [schemes_analyze] in R.
  - now injection R as <-.
  - apply bind_ok in R as (x1 & A & R). unfold scheme_analyze in A. apply bind_ok in A as ([x2 scl] & A & B). injection B as <-.
    destruct (ind_args compat host (fun _ _ => True) ltac:(auto) _ _ _ _ _ _ I Logic.I A) as (A1 & _ & A3 & A4).
    pose proof (args_gr _ _ _ _ _ _ I A) as G.
    change (schemes_analyze compat host (end_scheme x2 scl) l = Ok x') in R.
    rewrite (IH _ _ _ (inv_end_scheme _ _ _ scl A1) R). exact G.
Qed.
Context (HERR : forall s, In s error_names -> provided host s).
Lemma groups_gr l : forall dn x gsl su so, inv host dn x -> (exists run, s_cur x = new_group run) ->
  groups_analyze compat host (s_past x) (s_suite x) (s_sopt x) (s_gvars x) l = Ok (gsl, su, so) ->
  map g_run gsl = map g_run (s_past x) ++ map fst l.
Proof.
  induction l as [|[run schemes] l IH]; intros dn x gsl su so I NG R; cbn [groups_analyze] in R.
  - injection R as <- <- <-. now rewrite app_nil_r.
  - apply bind_ok in R as (x1 & A & R). change (mkSt (s_past x) (new_group run) (s_suite x) (s_sopt x) (s_gvars x)) with (set_cur x (new_group run)) in A.
    assert (I' : inv host dn (set_cur x (new_group run))) by (destruct NG as [r NG]; destruct I; rewrite NG in *; constructor; auto; cbn [s_cur set_cur]; try apply new_group_keys; intros j s; unfold gd, gc in *; cbn [s_past s_cur set_cur kk] in *; rewrite NG in *; eauto).
    pose proof (schemes_gr _ _ _ _ I' A) as E. change (gr (set_cur x (new_group run))) with (map g_run (s_past x) ++ [run]) in E.
    destruct (ind_schemes compat host (fun _ _ => True) ltac:(auto) ltac:(auto) _ _ _ _ I' Logic.I A) as (A1 & _ & A3).
    rewrite (IH _ (end_group x1 run) gsl su so (inv_end_group _ HERR _ _ _ A1) ltac:(now exists run) R).
    change (map g_run (s_past (end_group x1 run))) with (map g_run (s_past x1 ++ [s_cur x1])). rewrite map_app. change (map g_run (s_past x1) ++ map g_run [s_cur x1]) with (gr x1). rewrite E, <- app_assoc. reflexivity.
Qed.

(* --- compatibility of the uses of a host variable within a group --- *)
Definition Pcompat (dn : list (nat * arg)) (x : st) : Prop :=
  (forall s, In s error_names -> get s (d_vars (g_call (s_cur x))) <> None) /\
  forall l1 j a l2, dn = l1 ++ (j, a) :: l2 -> a_std a <> const_one -> hfind (a_std a) <> None -> mem (a_std a) loop_names = false ->
  (In (a_std a) error_names \/ exists b, In (j, b) l1 /\ a_std b = a_std a) ->
  exists c gv, get (a_std a) (gc x j) = Some gv /\ same_but_intent c gv /\ compat c (with_intent (a_var a)) = true.
Definition gc_keeps (x x' : st) : Prop := forall j s v, mem s loop_names = false -> get s (gc x j) = Some v -> exists w, get s (gc x' j) = Some w /\ same_but_intent v w.
Lemma sbi_trans a b c : same_but_intent a b -> same_but_intent b c -> same_but_intent a c.
Proof. unfold same_but_intent. intros (A & B & C) (D & E & F). rewrite D, E, F. auto. Qed.
Lemma sbi_refl a : same_but_intent a a.
Proof. unfold same_but_intent. auto. Qed.
Lemma host_step x a h d u gv gv' : keys_ok (g_call (s_cur x)) -> absent x (a_std a) -> add_variable compat (g_call (s_cur x)) (with_intent (a_var a)) true true true = (d, Ok u) ->
  get (a_std a) (d_vars d) = Some gv -> adjust_intent gv (a_var a) = Ok gv' -> hfind (a_std a) = Some h ->
  (forall t, t <> a_std a -> get t (set (a_std a) gv' (d_vars d)) = get t (d_vars (g_call (s_cur x)))) /\
  get (a_std a) (set (a_std a) gv' (d_vars d)) = Some gv' /\
  match get (a_std a) (d_vars (g_call (s_cur x))) with
  | Some c => compat c (with_intent (a_var a)) = true /\ same_but_intent c gv'
  | None => x_std gv' = a_std a
  end.
Proof.
  intros K (C & _) AV GD AI _. apply add_ok in AV as (_ & O & E); [|now rewrite with_intent_std|auto]. rewrite with_intent_std in *. change (x_std (a_var a)) with (a_std a) in *.
  destruct (adjust_same _ _ _ AI) as [SB _].
  split; [|split].
  - intros t T. rewrite get_set. apply str_eqb_neq in T as T'. rewrite T'. auto.
  - now rewrite get_set, str_eqb_refl.
  - destruct (get (a_std a) (d_vars (g_call (s_cur x)))) as [c|].
    + destruct E as (_ & E1 & w & E2 & E3 & _). split; auto. rewrite GD in E2. injection E2 as ->. eapply sbi_trans; eauto.
    + destruct E as (w & E2 & _ & E3 & _). rewrite GD in E2. injection E2 as ->. destruct SB as [SB _]. congruence.
Qed.
Lemma astep_keeps dn x a x' : inv host dn x -> astep compat host x a x' -> gc_keeps x x'.
Proof.
  intros I A j s v M G. destruct A as [A|i g w d u AB HF GG ML NE GV AV|h d u gv gv' AB HF OP LR AV GD AI|d o names prefix n dd lo u AB HF NG R LS' CE DN RQ AV|d u AB HF NG OD AV]; try (exists v; split; [exact G|apply sbi_refl]).
  - exists v. split; [|apply sbi_refl]. unfold gc, kk in *. cbn [s_past s_cur]. rewrite upd_length. destruct (j =? length (s_past x)); auto. unfold pc in *. rewrite nth_upd by (apply nth_error_Some; congruence).
    destruct (Nat.eqb_spec j i) as [->|N]; auto. now rewrite NE in G.
  - unfold gc in *. change (kk (set_cur x _)) with (kk x). destruct (Nat.eqb_spec j (kk x)) as [->|N]; [|exists v; split; [exact G|apply sbi_refl]].
    cbn [set_cur s_cur with_call g_call d_vars]. destruct (host_step x a h d u gv gv' (i_ck _ _ _ I) AB AV GD AI HF) as (H1 & H2 & H3).
    destruct (str_eqb s (a_std a)) eqn:Q.
    + apply str_eqb_eq in Q. subst s. rewrite G in H3. exists gv'. split; [auto|tauto].
    + apply str_eqb_neq in Q. rewrite H1 by auto. exists v. split; [auto|apply sbi_refl].
  - exists v. split; [|apply sbi_refl]. unfold gc in *. change (kk (set_cur x _)) with (kk x). destruct (Nat.eqb_spec j (kk x)) as [->|N]; [|exact G].
    cbn [set_cur s_cur with_dict with_call g_call d_vars]. destruct CE as (_ & CE & _). now rewrite CE.
Qed.
Lemma split_snoc {A} (l1 l2 : list A) y dn z : dn ++ [z] = l1 ++ y :: l2 -> (exists l2', l2 = l2' ++ [z] /\ dn = l1 ++ y :: l2') \/ l2 = [] /\ y = z /\ dn = l1.
Proof.
  destruct l2 as [|w l2] using rev_ind; intros E.
  - apply app_inj_tail in E as [-> ->]. auto.
  - rewrite app_comm_cons, app_assoc in E. apply app_inj_tail in E as [-> ->]. eauto.
Qed.
Lemma Pcompat_arg dn x a x' : inv host dn x -> Pcompat dn x -> astep compat host x a x' -> Pcompat (dn ++ [(kk x, a)]) x'.
Proof.
  intros I [PE P] A. pose proof (astep_keeps _ _ _ _ I A) as KP. pose proof (astep_kk _ _ _ _ _ A) as KE.
  assert (ENL : forall s, In s error_names -> mem s loop_names = false) by (intros s [<-|[<-|[]]]; reflexivity).
  split.
  - intros s E. destruct (get s (d_vars (g_call (s_cur x)))) as [v|] eqn:G; [|now apply PE in G]. destruct (KP (kk x) s v) as (w & W & _); [auto|unfold gc; now rewrite Nat.eqb_refl|].
    unfold gc in W. rewrite KE, Nat.eqb_refl in W. congruence.
  - intros l1 j b l2 E C HN M FI. apply split_snoc in E as [(l2' & -> & E)|(-> & E & ->)].
    + destruct (P _ _ _ _ E C HN M FI) as (c & gv & G & S1 & S2). destruct (KP _ _ _ M G) as (w & W & S3). exists c, w. split; auto. split; auto. eapply sbi_trans; eauto.
    + injection E as -> ->.
      assert (PR : get (a_std a) (d_vars (g_call (s_cur x))) <> None).
      { destruct FI as [FI|(b & B1 & B2)]; [auto|]. destruct (i_src _ _ _ I (kk x) (a_std a)) as [Q|[Q|Q]]; [now exists b|auto| | |].
        - apply (i_loc _ _ _ I) in Q. tauto.
        - unfold gc in Q. now rewrite Nat.eqb_refl in Q.
        - apply (i_suite _ _ _ I) in Q. tauto. }
      destruct A as [A|i g w d u AB HF GG ML NE GV AV|h d u gv gv' AB HF OP LR AV GD AI|d o names prefix n dd lo u AB HF NG R LS' CE DN RQ AV|d u AB HF NG OD AV]; try congruence.
      * exfalso. destruct A as [A|[_ [A|A]]]; [auto| |].
        -- assert (Q : get (a_std a) (gd x (kk x)) <> None) by (unfold gd; now rewrite Nat.eqb_refl). apply (i_loc _ _ _ I) in Q. tauto.
        -- apply (i_suite _ _ _ I) in A. tauto.
      * destruct (host_step x a h d u gv gv' (i_ck _ _ _ I) AB AV GD AI HF) as (H1 & H2 & H3).
        destruct (get (a_std a) (d_vars (g_call (s_cur x)))) as [c|] eqn:G; [|congruence]. exists c, gv'. split; [|tauto].
        unfold gc. change (kk (set_cur x _)) with (kk x). rewrite Nat.eqb_refl. exact H2.
Qed.
Lemma Pcompat_group dn x run : inv host dn x -> Pcompat dn x -> Pcompat dn (end_group x run).
Proof.
  intros I [PE P]. split.
  - intros s E. change (s_cur (end_group x run)) with (new_group run). now apply new_group_calls.
  - intros l1 j a l2 E C HN M FI. destruct (P _ _ _ _ E C HN M FI) as (c & gv & G & SB). exists c, gv. split; auto. rewrite gc_end. destruct (Nat.eqb_spec j (S (kk x))) as [->|]; auto.
    exfalso. assert (K : In (S (kk x), a) dn) by (rewrite E; apply in_app_iff; right; now left). apply (i_le _ _ _ I) in K. lia.
Qed.
Lemma Pcompat_start run : Pcompat [] (mkSt [] (new_group run) d_empty [] []).
Proof. split; [intros s E; now apply new_group_calls|]. intros [|] ? ? ? E; discriminate. Qed.

(* --- no optional arguments --- *)
Definition all_false (l : list (str * bool)) : Prop := forall s b, In (s, b) l -> b = false.
Lemma all_false_of l s : all_false l -> opt_of s l = false.
Proof. intros A. unfold opt_of. destruct (get s l) eqn:G; auto. apply get_in in G. eauto. Qed.
Lemma all_false_note l s b : all_false l -> b = false -> all_false (note_opt s b l).
Proof. intros A -> t c I. unfold note_opt in I. destruct (has s l); [eauto|]. apply in_app_iff in I as [I|[[= _ <-]|[]]]; eauto. Qed.

Definition nopt (x : st) : Prop := all_false (g_lopt (s_cur x)) /\ all_false (g_copt (s_cur x)) /\ all_false (s_sopt x) /\
  forall g, In g (s_past x) -> all_false (g_lopt g) /\ all_false (g_copt g).
Lemma in_upd {A} (y z : A) : forall l i, In z (upd i y l) -> z = y \/ In z l.
Proof. induction l as [|w l IH]; intros [|i]; cbn; intros H; [tauto|tauto| |]; destruct H as [H|H]; auto. apply IH in H. tauto. Qed.
Lemma nopt_l x : nopt x -> all_false (g_lopt (s_cur x)).
Proof. now intros (A & _). Qed.
Lemma nopt_c x : nopt x -> all_false (g_copt (s_cur x)).
Proof. now intros (_ & A & _). Qed.
Lemma nopt_cur x g : nopt x -> all_false (g_lopt g) -> all_false (g_copt g) -> nopt (set_cur x g).
Proof. intros (A & B & C & D) E F. split; [|split; [|split]]; auto. Qed.
Lemma suite_find_nopt x s any x' f : nopt x -> suite_find compat host x s any = Ok (x', f) -> nopt x'.
Proof.
  intros N H. unfold suite_find in H. destruct (str_eqb s const_one); [now injection H as <- <-|]. destruct (get s (d_vars (s_suite x))); [now injection H as <- <-|].
  destruct (if any then host_find host s else None); [now injection H as <- <-|]. destruct (get s (s_gvars x)) as [i|]; [|now injection H as <- <-].
  destruct (mem s loop_names); [now injection H as <- <-|]. destruct (nth_error (s_past x) i) as [g|] eqn:NE; [|discriminate]. destruct (get s (d_vars (g_dict g))) as [v|]; [|discriminate].
  destruct (add_variable compat (s_suite x) v false false false) as [d [u|]]; [|discriminate]. injection H as <- <-. destruct N as (A & B & C & D). apply nth_error_In in NE. pose proof (D g NE) as [D1 D2].
  split; [|split; [|split]]; auto; cbn [s_sopt s_past].
  - apply all_false_note; auto. now apply all_false_of.
  - intros h H. apply in_upd in H as [->|H]; auto.
Qed.
Lemma find_up_nopt x s x' f : nopt x -> find_up compat host x s = Ok (x', f) -> nopt x'.
Proof.
  intros N H. unfold find_up in H. destruct (str_eqb s const_one); [now injection H as <- <-|]. destruct (get s (d_vars (g_dict (s_cur x)))); [now injection H as <- <-|]. eapply suite_find_nopt; eauto.
Qed.
Lemma group_add_nopt x v o e g x' : nopt x -> o = false -> group_add_call compat host x v o e g = Ok x' -> nopt x'.
Proof.
  intros N O H. unfold group_add_call in H. apply bind_ok in H as ([x1 f] & A & H). apply suite_find_nopt in A; auto.
  assert (G : (let g0 := s_cur x1 in if has (x_std v) (d_vars (g_dict g0)) then Ok x1 else if mem (x_std v) loop_names && negb (g_run g0) then Raise "CCPPError: loop variable" else
     match add_variable compat (g_call g0) (with_intent v) e g true with
     | (_, Raise m) => Raise m
     | (d, Ok _) => Ok (set_cur x1 (mkG (g_run g0) (g_dict g0) d (g_lopt g0) (note_opt (x_std v) o (g_copt g0)) (g_loops g0) (g_schemes g0))) end) = Ok x' -> nopt x').
  { cbv zeta. destruct (has _ _); [now intros [= <-]|]. destruct (_ && _); [discriminate|]. destruct (add_variable _ _ _ _ _ _) as [d [u|]]; [|discriminate]. intros [= <-].
    destruct A as (A & B & C & D). apply nopt_cur; cbn [g_lopt g_copt]; auto using all_false_note. split; [|split; [|split]]; auto. }
  destruct f as [[| | |]|]; auto; now injection H as <-.
Qed.
Lemma tree_add_nopt x v o g x' : nopt x -> o = false -> tree_add compat host x v o g = Ok x' -> nopt x'.
Proof. intros N O H. unfold tree_add in H. destruct (_ && _); [now injection H as <-|]. eapply group_add_nopt; eauto. Qed.
Lemma tree_add_all_nopt l : forall x x', nopt x -> tree_add_all compat host x l = Ok x' -> nopt x'.
Proof.
  induction l as [|v l IH]; intros x x' N H; cbn [tree_add_all] in H; [now injection H as <-|]. apply bind_ok in H as (x1 & A & H). apply tree_add_nopt in A; eauto.
Qed.
Lemma has_subst_nopt l : forall x x' r, nopt x -> has_subst compat host x l = Ok (x', r) -> nopt x'.
Proof.
  induction l as [|v l IH]; intros x x' r N H; cbn [has_subst] in H; [now injection H as <- <-|]. apply bind_ok in H as ([x1 f] & A & H). apply find_up_nopt in A; auto.
  destruct f as [f|]; [|now injection H as <- <-]. apply bind_ok in H as ([x2 l2] & B & H). injection H as <- <-. eauto.
Qed.
Lemma register_nopt x s p x' : nopt x -> register_loop compat x s p = Ok x' -> nopt x'.
Proof.
  intros N H. unfold register_loop in H. cbv zeta in H. destruct (has _ _).
  - injection H as <-. apply nopt_cur; auto; cbn [g_lopt g_copt]; auto using nopt_l, nopt_c.
  - destruct (new_name _ _ _ _); [|discriminate]. destruct (add_variable _ _ _ _ _ _) as [d [u|]]; [|discriminate]. injection H as <-. apply nopt_cur; auto; cbn [g_lopt g_copt]; [apply all_false_note; auto using nopt_l|auto using nopt_c].
Qed.
Lemma scheme_arg_nopt x scl a x' scl' : nopt x -> a_opt a = false -> scheme_arg compat host x scl a = Ok (x', scl') -> nopt x'.
Proof.
  intros N O H. unfold scheme_arg in H. apply bind_ok in H as ([x1 b] & A & H).
  assert (N1 : nopt x1).
  { unfold match_variable in A. apply bind_ok in A as ([x2 f] & B & A). apply find_up_nopt in B; auto.
    assert (G : forall f, (if negb (a_opt a) && negb (match f with FHost h => h_always h | _ => true end) then Raise "CCPPError: non optional argument for conditionally allocatable variable"
      else x <- tree_add compat host x2 (a_var a) (a_opt a) true ;; Ok (x, true)) = Ok (x1, b) -> nopt x1).
    { intros f0. destruct (_ && _); [discriminate|]. intros Q. apply bind_ok in Q as (x3 & T & Q). injection Q as <- <-. eapply tree_add_nopt; eauto. }
    destruct f as [[|v|v|h]|]; [apply (G FConst A)|now injection A as <- <-|now injection A as <- <-|apply (G (FHost h) A)|].
    unfold loop_subst in A. destruct (if g_run (s_cur x2) then get (a_std a) loop_substs else None) as [[names prefix]|]; [|now injection A as <- <-].
    apply bind_ok in A as ([x3 r] & C & A). apply has_subst_nopt in C; auto. destruct r as [l|]; [|now injection A as <- <-].
    apply bind_ok in A as (x4 & D & A). apply tree_add_all_nopt in D; auto. apply bind_ok in A as (x5 & E & A). injection A as <- <-. eapply register_nopt; eauto. }
  assert (MG : (x <- manage compat x1 a ;; scl0 <- scheme_add compat x scl (a_var a) false ;; Ok (x, scl0)) = Ok (x', scl') -> nopt x').
  { intros Q. apply bind_ok in Q as (x2 & M & Q). apply bind_ok in Q as (scl2 & _ & Q). injection Q as <- <-. unfold manage in M. cbv zeta in M.
    destruct (add_variable _ _ _ _ _ _) as [d [u|]]; [|discriminate]. injection M as <-. apply nopt_cur; auto; cbn [g_lopt g_copt]; [apply all_false_note; auto using nopt_l|auto using nopt_c]. }
  destruct b.
  - apply bind_ok in H as (scl1 & _ & H). apply bind_ok in H as (x2 & U & H). injection H as <- <-.
    unfold update_group in U. cbv zeta in U. destruct (str_eqb _ _); [now injection U as <-|]. destruct (get _ _) as [gv|].
    + apply bind_ok in U as (gv' & _ & U). injection U as <-. apply nopt_cur; auto; cbn [g_lopt g_copt]; auto using nopt_l, nopt_c.
    + destruct (has _ _); [now injection U as <-|]. apply bind_ok in U as ([x3 f] & F & U). apply find_up_nopt in F; auto.
      destruct f as [[| | |]|]; try (now injection U as <-); exact (group_add_nopt _ _ _ _ _ _ F O U).
  - destruct (x_intent (a_var a)) as [[]|]; auto; destruct (a_default a); auto; discriminate.
Qed.
Lemma schemes_nopt l : forall x x', nopt x -> (forall sch a, In sch l -> In a sch -> a_opt a = false) -> schemes_analyze compat host x l = Ok x' -> nopt x'.
Proof.
  assert (ARGS : forall l x scl x' scl', nopt x -> (forall a, In a l -> a_opt a = false) -> scheme_args compat host x scl l = Ok (x', scl') -> nopt x').
  { clear l. induction l as [|a l IH]; intros x scl x' scl' N O H; cbn [scheme_args] in H; [now injection H as <- <-|].
    apply bind_ok in H as ([x1 scl1] & A & H). apply scheme_arg_nopt in A; [|auto|apply O; now left]. eapply IH; eauto. intros b B. apply O. now right. }
  induction l as [|sch l IH]; intros x x' N O H; cbn [schemes_analyze] in H; [now injection H as <-|].
  apply bind_ok in H as (x1 & A & H). unfold scheme_analyze in A. apply bind_ok in A as ([x2 scl] & A & B). injection B as <-.
  apply ARGS in A; [|auto|intros a; apply O; now left]. eapply IH; [| |exact H].
  - apply nopt_cur; auto; cbn [g_lopt g_copt]; auto using nopt_l, nopt_c.
  - intros sch' a I. apply O. now right.
Qed.
Lemma groups_nopt l : forall past su so gv gsl su' so', (forall g, In g past -> all_false (g_lopt g) /\ all_false (g_copt g)) -> all_false so ->
  (forall run schemes sch a, In (run, schemes) l -> In sch schemes -> In a sch -> a_opt a = false) ->
  groups_analyze compat host past su so gv l = Ok (gsl, su', so') ->
  all_false so' /\ forall g, In g gsl -> all_false (g_lopt g) /\ all_false (g_copt g).
Proof.
  induction l as [|[run schemes] l IH]; intros past su so gv gsl su' so' P S1 O H; cbn [groups_analyze] in H; [injection H as <- <- <-; auto|].
  apply bind_ok in H as (x1 & A & H). apply schemes_nopt in A.
  - destruct A as (A & B & C & D). eapply IH; [| | |exact H].
    + intros g I. apply in_app_iff in I as [I|[<-|[]]]; auto.
    + exact C.
    + intros r sc sch a I. apply (O r sc sch a). now right.
  - split; [intros ? ? []|]. split; [|split; auto]. intros t b I. cbn [s_cur new_group g_copt] in I. destruct I as [[= _ <-]|[[= _ <-]|[]]]; reflexivity.
  - intros sch a I1 I2. apply (O run schemes sch a); auto. now left.
Qed.

(* --- the call list of a scheme --- *)
Definition entry_of (a : arg) : str * var := (a_std a, with_intent (a_var a)).
Lemma added_entries l : forall d d', added compat d l d' -> keys_ok d ->
  (forall a, In a l -> a_std a <> const_one) -> NoDup (map fst (d_vars d) ++ map a_std l) ->
  NoDup (map (fun kv => lower (x_local (snd kv))) (d_vars d) ++ map (fun a => lower (x_local (a_var a))) l) ->
  d_vars d' = d_vars d ++ map entry_of l.
Proof.
  induction l as [|a l IH]; intros d d' A K C N1 N2; inversion A as [|? ? e d1 ? ? AV A']; subst.
  - now rewrite app_nil_r.
  - assert (CA : a_std a <> const_one) by (apply C; now left).
    assert (GN : get (a_std a) (d_vars d) = None).
    { apply get_none. intros H. cbn [map] in N1. apply NoDup_remove_2 in N1. apply N1. apply in_app_iff. auto. }
    apply add_ok in AV as (K1 & O & E); [|now rewrite with_intent_std|auto]. rewrite with_intent_std in *. change (x_std (a_var a)) with (a_std a) in *. rewrite GN in E.
    destruct E as (w & E1 & E2 & E3 & E4 & E5 & E6).
    assert (WL : x_local (with_intent (a_var a)) = x_local (a_var a)) by (unfold with_intent; now destruct (x_intent (a_var a))).
    assert (W : w = with_intent (a_var a)).
    { assert (WS : x_std (with_intent (a_var a)) = a_std a) by apply with_intent_std. destruct E6 as [[E6 _]|[E6 _]]; [|discriminate].
      destruct w as [w1 w2 w3 w4]. destruct (with_intent (a_var a)) as [u1 u2 u3 u4]. cbn [x_std x_local x_intent x_prot] in *. subst. reflexivity. }
    subst w. rewrite (IH d1 d' A' K1).
    + rewrite E2, <- app_assoc. reflexivity.
    + intros b B. apply C. now right.
    + rewrite E2, map_app, <- app_assoc. exact N1.
    + rewrite E2, map_app, <- app_assoc. cbn [map app snd]. rewrite WL. exact N2.
Qed.
End More.
