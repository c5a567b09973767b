(* The arguments of prebuild group caps: C144, C145. *)
From Coq Require Import List Ascii String ZArith Bool Lia Arith.
From Verif Require Import PyStr SelModel CheckProofs ActProofs ParModel ParSpec ParProofs ParProps ParGroup.
Import ListNotations.
Open Scope nat_scope. Open Scope list_scope.

(* the host variables as the model of the code has them *)
Definition of_host (h : host) : hostdefs := map (fun x => (fst x, mkHV (fst (snd x)) (snd (snd x)))) h.
(* the Fortran names are references *)
Definition readable (h : host) : Prop := forall v n ds, In (v, (n, ds)) h -> exists b i, ref n b i.
(* the variable called [x] is an argument, with an intent that [ok] accepts *)
Definition passed (h : host) (P : list (str * intent)) (x : str) (ok : intent -> Prop) : Prop :=
  exists p n ds q, In (p, (n, ds)) h /\ called x n /\ In (p, q) P /\ ok q.
Definition integer (s : str) : Prop := py_int s <> None.

Lemma oh_keys h : map fst (of_host h) = map fst h.
Proof. unfold of_host. rewrite map_map. reflexivity. Qed.
Lemma oh_in h v hv : NoDup (map fst h) -> (assoc (of_host h) v = Some hv <-> In (v, (hv_local hv, hv_dims hv)) h).
Proof.
  intros N. split.
  - intros E. apply assoc_in, in_map_iff in E as ([w [n ds]] & [= <- <-] & I). exact I.
  - intros I. apply assoc_nodup; [now rewrite oh_keys|]. apply in_map_iff. exists (v, (hv_local hv, hv_dims hv)). split; auto. now destruct hv.
Qed.
Lemma oh_ref h : NoDup (map fst h) -> readable h -> forall n hv, assoc (of_host h) n = Some hv -> exists b i, ref (hv_local hv) b i.
Proof. intros N R n hv E. apply oh_in in E; auto. eapply R; eauto. Qed.

Definition serves (d : hostdefs) (P : parents) (a : str) (i : intent) : Prop :=
  exists hv b js, assoc d a = Some hv /\ ref (hv_local hv) b js /\
    (exists p q, named d b p /\ assoc P p = Some q /\ (i <> IIn -> q <> IIn) /\ (q = IOut -> i = IOut)) /\
    (forall x, In x js -> exists p q, named d x p /\ assoc P p = Some q /\ q <> IOut).
Lemma no_paren_name n : name n -> ~ In "("%char n.
Proof. intros N. apply words_no; [now apply name_words|reflexivity]. Qed.
Lemma called_name x n : name n -> called x n -> x = n.
Proof. intros N [->|(cs & _ & _ & ->)]; auto. exfalso. apply (no_paren_name _ N). apply in_or_app. right. now left. Qed.
Lemma named_back d0 d1 x p : defs_ok d0 d1 -> named d1 x p -> named d0 x p.
Proof.
  intros [_ D] (hp & A & C). destruct (D p hp A) as (h0 & A0 & _ & [E|[N C']]); exists h0; split; auto; [congruence|].
  now rewrite (called_name _ _ N C).
Qed.
Lemma serves_back d0 d1 P a i : defs_ok d0 d1 -> serves d1 P a i -> serves d0 P a i.
Proof.
  intros D (hv & b & js & A & R & (p & q & Np & Aq & C) & X). destruct (proj2 D a hv A) as (h0 & A0 & _ & E).
  exists h0, b. destruct E as [E|[N C']].
  - exists js. rewrite <- E. split; auto. split; auto. split; [exists p, q; split; auto; now apply (named_back _ _ _ _ D)|].
    intros x I. destruct (X x I) as (p' & q' & N' & Y). exists p', q'. split; auto. now apply (named_back _ _ _ _ D).
  - exists []. destruct (ref_unique _ _ _ _ _ R (ref_one _ _ _ (comp_name _ N))) as [-> _]. split; auto. split; [now apply called_ref|].
    split; [exists p, q; split; auto; now apply (named_back _ _ _ _ D)|]. intros x [].
Qed.
Definition below (P P' : parents) : Prop := forall p q, assoc P p = Some q -> exists q', assoc P' p = Some q' /\ (q <> IIn -> q' <> IIn) /\ (q' = IOut -> q = IOut).
Lemma below_refl P : below P P.
Proof. intros p q E. eauto. Qed.
Lemma below_trans P Q R : below P Q -> below Q R -> below P R.
Proof. intros A B p q E. destruct (A p q E) as (q' & E' & X & Y). destruct (B p q' E') as (q'' & E'' & X' & Y'). exists q''. auto. Qed.
Lemma serves_below d P P' a i : below P P' -> serves d P a i -> serves d P' a i.
Proof.
  intros B (hv & b & js & A & R & (p & q & Np & Aq & C1 & C2) & X). exists hv, b, js. split; auto. split; auto. split.
  - destruct (B p q Aq) as (q' & E & Y & Z). exists p, q'. split; auto.
  - intros x I. destruct (X x I) as (p' & q' & N' & A' & C'). destruct (B p' q' A') as (q'' & E & Y & Z). exists p', q''. split; auto.
Qed.
Lemma merge_one_below acc pq : below acc (merge_parent acc pq).
Proof.
  intros p q E. unfold merge_parent. destruct (str_dec p (fst pq)) as [->|N]; [|rewrite put_other; eauto].
  rewrite put_same, E. eexists. split; [reflexivity|]. destruct q, (snd pq); cbn; split; congruence.
Qed.
Lemma merge_acc g : forall acc, below acc (merge_parents acc g).
Proof. unfold merge_parents. induction g as [|pq g IH]; cbn [fold_left]; intros acc; [apply below_refl|]. eapply below_trans; [apply merge_one_below|apply IH]. Qed.
Lemma merge_new g : forall acc, below g (merge_parents acc g).
Proof.
  unfold merge_parents. induction g as [|[k w] g IH]; intros acc p q E; cbn [assoc fold_left] in *; [discriminate|]. destruct (str_eqb k p) eqn:K.
  - apply str_eqb_eq in K. subst k. injection E as <-. assert (X : exists q', assoc (merge_parent acc (p, w)) p = Some q' /\ (w <> IIn -> q' <> IIn) /\ (q' = IOut -> w = IOut)).
    { unfold merge_parent. cbn [fst snd]. rewrite put_same. eexists. split; [reflexivity|]. destruct (assoc acc p) as [[]|], w; cbn; split; congruence. }
    destruct X as (q' & E' & X & Y). destruct (merge_acc g _ p q' E') as (q'' & E'' & X' & Y'). exists q''. auto.
  - now apply IH.
Qed.
Lemma merge_nodup g : forall acc, NoDup (map fst acc) -> NoDup (map fst (merge_parents acc g)).
Proof. unfold merge_parents. induction g as [|pq g IH]; cbn [fold_left]; intros acc N; auto. apply IH, put_nodup, N. Qed.

Section One.
Variable d0 : hostdefs.
Hypothesis ND : NoDup (map fst d0).
Hypothesis REF : forall n hv, assoc d0 n = Some hv -> exists b i, ref (hv_local hv) b i.
Lemma stage_serves d ss st add args a i : defs_ok d0 d -> stage (by_local d0) d ss = Ok st -> In (add, args) ss -> In (a, i) args \/ (In a add /\ i = IIn) ->
  serves d0 (g_par st) a i.
Proof.
  intros D E I A. destruct (schemes_ok d0 ND REF _ _ _ _ _ (good_start d0 d D) (mk_start d0 d) E) as (H & U & G & MK & _ & S1 & _).
  destruct (S1 _ I) as [X Y]. cbn in X, Y. assert (HI : In (a, i) H) by (destruct A as [A|[A ->]]; auto).
  destruct (k_hist _ _ _ _ G _ _ HI) as (p & q & K & Aq & C1 & C2). destruct (k_known _ _ _ _ G _ _ K) as [(hv & b & js & Ah & R & F) _].
  assert (KN : assoc (g_known st) a <> None) by congruence. pose proof (MK a KN) as M.
  exists hv, b, js. split; auto. split; auto. split; [exists p, q; split; auto; now apply find_parent_named|].
  intros x Ix. destruct (M hv b js x Ah R Ix) as (p' & F' & I'). destruct (k_idx _ _ _ _ G _ I') as (q' & A' & N'). exists p', q'.
  split; auto. now apply find_parent_named.
Qed.
Lemma stage_defs d ss st : defs_ok d0 d -> stage (by_local d0) d ss = Ok st -> defs_ok d0 (g_defs st) /\ NoDup (map fst (g_par st)).
Proof. intros D E. destruct (schemes_ok d0 ND REF _ _ _ _ _ (good_start d0 d D) (mk_start d0 d) E) as (H & U & G & _). destruct G; auto. Qed.
Lemma stages_serve l : forall d ps d', defs_ok d0 d -> stages (by_local d0) d l = Ok (ps, d') ->
  defs_ok d0 d' /\ length ps = length l /\ Forall (fun P => NoDup (map fst P)) ps /\
  forall k ss, nth_error l k = Some ss -> exists P, nth_error ps k = Some P /\
    forall add args a i, In (add, args) ss -> In (a, i) args \/ (In a add /\ i = IIn) -> serves d0 P a i.
Proof.
  induction l as [|ss l IH]; cbn [stages]; intros d ps d' D E.
  - injection E as <- <-. split; auto. split; auto. split; [constructor|]. intros [|k] ss X; discriminate.
  - apply bind_ok in E as (st & E1 & E2). apply bind_ok in E2 as ([ps1 d1] & E2 & [= <- <-]).
    destruct (stage_defs _ _ _ D E1) as [D1 N1]. destruct (IH _ _ _ D1 E2) as (D2 & LN & F & Q). split; auto. split; [cbn; congruence|]. split; [now constructor|].
    intros [|k] s X; cbn in X.
    + injection X as <-. exists (g_par st). split; auto. intros add args a i Ha Hb. exact (stage_serves d ss st add args a i D E1 Ha Hb).
    + apply Q, X.
Qed.
End One.

Lemma defs_refs d0 d1 : (forall n hv, assoc d0 n = Some hv -> exists b i, ref (hv_local hv) b i) -> defs_ok d0 d1 ->
  forall n hv, assoc d1 n = Some hv -> exists b i, ref (hv_local hv) b i.
Proof.
  intros R [_ D] n hv A. destruct (D n hv A) as (h0 & A0 & _ & [E|[N _]]); [rewrite E; eauto|]. exists (hv_local hv), []. now apply ref_one, comp_name.
Qed.
Lemma defs_ok_trans d0 d1 d2 : defs_ok d0 d1 -> defs_ok d1 d2 -> defs_ok d0 d2.
Proof.
  intros [K1 D1] [K2 D2]. split; [congruence|]. intros v hv A. destruct (D2 v hv A) as (h1 & A1 & E1 & X). destruct (D1 v h1 A1) as (h0 & A0 & E0 & Y).
  exists h0. split; auto. split; [congruence|]. destruct X as [X|[N C]].
  - rewrite X. exact Y.
  - destruct Y as [Y|[N' C']]; [right; split; auto; congruence|]. right. split; auto. now rewrite (called_name _ _ N' C).
Qed.
Lemma merge_stages_len acc : forall g, length g = length acc -> length (merge_stages acc g) = length acc.
Proof. induction acc as [|a acc IH]; intros [|x g] E; cbn in *; auto. Qed.
Lemma merge_stages_nth acc : forall g k a x, nth_error acc k = Some a -> nth_error g k = Some x -> nth_error (merge_stages acc g) k = Some (merge_parents a x).
Proof. induction acc as [|a acc IH]; intros [|x g] [|k] b y A B; cbn in *; try discriminate; [congruence|]. now apply IH. Qed.
Lemma merge_stages_nodup acc : forall g, Forall (fun P => NoDup (map fst P)) acc -> Forall (fun P => NoDup (map fst P)) (merge_stages acc g).
Proof. induction acc as [|a acc IH]; intros g F; cbn; auto. inversion F; subst. destruct g as [|x g]; auto. constructor; auto. now apply merge_nodup. Qed.
Lemma suite_serves d0 gs : (forall n hv, assoc d0 n = Some hv -> exists b i, ref (hv_local hv) b i) -> NoDup (map fst d0) ->
  forall d acc par m, defs_ok d0 d -> suite d gs acc = Ok par -> length acc = m -> Forall (fun g => length g = m) gs ->
  Forall (fun P => NoDup (map fst P)) acc ->
  Forall (fun P => NoDup (map fst P)) par /\
  (forall k P, nth_error acc k = Some P -> exists P', nth_error par k = Some P' /\ below P P') /\
  (forall g k ss, In g gs -> nth_error g k = Some ss -> exists P, nth_error par k = Some P /\
    forall add args a i, In (add, args) ss -> In (a, i) args \/ (In a add /\ i = IIn) -> serves d0 P a i).
Proof.
  intros R ND. induction gs as [|g gs IH]; cbn [suite]; intros d acc par m D E LA FG FA.
  - injection E as <-. split; auto. split; [intros k P X; exists P; split; auto; apply below_refl|]. intros g k ss [].
  - apply bind_ok in E as ([ps d1] & E1 & E2). cbn [fst snd] in E2. inversion FG as [|x y Lg FG']; subst x y. unfold group in E1.
    assert (NDd : NoDup (map fst d)) by (destruct D as [-> _]; exact ND).
    destruct (stages_serve d NDd (defs_refs _ _ R D) g d ps d1 (defs_ok_start d) E1) as (D1 & LN & FN & Q).
    assert (LP : length ps = length acc) by congruence.
    eapply (IH d1 _ _ m) in E2 as (F' & B' & S'); [|eapply defs_ok_trans; eauto|now rewrite merge_stages_len|exact FG'|now apply merge_stages_nodup].
    assert (NTH : forall k a x, nth_error acc k = Some a -> nth_error ps k = Some x -> exists P', nth_error par k = Some P' /\ below a P' /\ below x P').
    { intros k a x A B. destruct (B' k _ (merge_stages_nth _ _ _ _ _ A B)) as (P' & N' & W). exists P'. split; auto.
      split; eapply below_trans; [apply merge_acc|exact W|apply merge_new|exact W]. }
    split; auto. split; [|].
    + intros k P X. destruct (nth_error ps k) as [x|] eqn:Ex.
      * destruct (NTH k P x X Ex) as (P' & A & B & _). eauto.
      * apply nth_error_None in Ex. apply (f_equal (fun o => match o with Some _ => true | None => false end)) in X.
        assert (Y : nth_error acc k = None) by (apply nth_error_None; lia). rewrite Y in X. discriminate.
    + intros g' k ss [<-|I] X; [|eapply S'; eauto]. destruct (Q k ss X) as (x & Nx & Sx).
      destruct (nth_error acc k) as [a|] eqn:Ea.
      * destruct (NTH k a x Ea Nx) as (P' & A & _ & B). exists P'. split; auto. intros. eapply serves_below; eauto. eapply serves_back; eauto.
      * apply nth_error_None in Ea. assert (Y : nth_error ps k = None) by (apply nth_error_None; lia). congruence.
Qed.
Lemma serves_passed h P a i : NoDup (map fst h) -> serves (of_host h) P a i ->
  exists n ds b js, In (a, (n, ds)) h /\ ref n b js /\
    passed h P b (fun q => (i <> IIn -> q <> IIn) /\ (q = IOut -> i = IOut)) /\
    (forall x, In x js -> passed h P x (fun q => q <> IOut)).
Proof.
  intros N (hv & b & js & A & R & (p & q & (hp & Ap & C) & Aq & Y) & X). apply oh_in in A, Ap; auto. exists (hv_local hv), (hv_dims hv), b, js.
  split; auto. split; auto. split.
  - exists p, (hv_local hp), (hv_dims hp), q. repeat split; auto; try apply Y. now apply assoc_in.
  - intros x I. destruct (X x I) as (p' & q' & (hp' & Ap' & C') & Aq' & Y'). apply oh_in in Ap'; auto. exists p', (hv_local hp'), (hv_dims hp'), q'.
    repeat split; auto. now apply assoc_in.
Qed.

(* ---------------------------------------------------------------- C144 *)
(* The suite cap.  Whatever the host, the groups and the schemes: for every argument
   of every scheme of every group the variable its Fortran name starts with is an
   argument of the cap of the stage, written when the scheme writes it and
   intent(out) only when this scheme writes it without reading; the variables in
   subscripts are arguments that are read.  No variable is an argument twice. *)
Theorem C144_suite_arguments_partial : forall h gs m par g k ss add args a i,
  NoDup (map fst h) -> readable h -> Forall (fun g => length g = m) gs ->
  suite (of_host h) gs (List.repeat [] m) = Ok par ->
  In g gs -> nth_error g k = Some ss -> In (add, args) ss -> In (a, i) args \/ (In a add /\ i = IIn) ->
  exists P n ds b js, nth_error par k = Some P /\ NoDup (map fst P) /\ In (a, (n, ds)) h /\ ref n b js /\
    passed h P b (fun q => (i <> IIn -> q <> IIn) /\ (q = IOut -> i = IOut)) /\
    (forall x, In x js -> passed h P x (fun q => q <> IOut)).
Proof.
  intros h gs m par g k ss add args a i N R F E G K I A.
  assert (N0 : NoDup (map fst (of_host h))) by now rewrite oh_keys.
  eapply suite_serves with (d0 := of_host h) (m := m) in E as (FN & _ & S); eauto using oh_ref, defs_ok_start.
  - destruct (S g k ss G K) as (P & NP & Q). specialize (Q _ _ _ _ I A). destruct (serves_passed h P a i N Q) as (n & ds & b & js & X).
    exists P, n, ds, b, js. split; auto. split; auto. rewrite Forall_forall in FN. apply FN. eapply nth_error_In; eauto.
  - apply repeat_length.
  - apply Forall_forall. intros x X. apply List.repeat_spec in X. subst. constructor.
Qed.
Print Assumptions C144_suite_arguments_partial.

(* The group cap has no other arguments than variables that needed ones refer to,
   and none is written unless a scheme writes a part of it. *)
Theorem C144_nothing_else : forall h ss st, NoDup (map fst h) -> readable h -> stage (by_local (of_host h)) (of_host h) ss = Ok st ->
  forall p q, In (p, q) (g_par st) ->
    (exists v x n ds, needed h integer ss v /\ refers h v x /\ In (p, (n, ds)) h /\ called x n) /\
    (q <> IIn -> exists add args a i n ds b js np dsp, In (add, args) ss /\ In (a, i) args /\ i <> IIn /\
        In (a, (n, ds)) h /\ ref n b js /\ In (p, (np, dsp)) h /\ called b np).
Proof.
  intros h ss st N R E p q I. pose proof (oh_ref h N R) as RR. assert (N0 : NoDup (map fst (of_host h))) by now rewrite oh_keys.
  assert (RF : forall v x, refers0 (of_host h) v x <-> refers h v x).
  { intros v x. split.
    - intros (hv & b & i & A & Rf & X). apply oh_in in A; auto. exists (hv_local hv), (hv_dims hv), b, i. auto.
    - intros (n & ds & b & i & A & Rf & X). exists (mkHV n ds), b, i. split; [now apply oh_in|auto]. }
  pose proof (defs_ok_start (of_host h)) as D0.
  destruct (schemes_ok (of_host h) N0 RR _ _ _ _ _ (good_start _ _ D0) (mk_start _ _) E) as (H & U & G & _ & _ & _ & S3 & _).
  assert (Aq : assoc (g_par st) p = Some q) by (apply assoc_nodup; auto; apply (k_nd _ _ _ _ G)). split.
  - assert (UP : up (of_host h) (needed h integer ss) st).
    { eapply stage_up; eauto.
      - intros v x p' hp d t Nv Rv F A Id It P. apply RF in Rv. destruct (find_parent_named _ _ _ N0 F) as (hp' & A' & C). assert (hp' = hp) by congruence. subst hp'.
        apply oh_in in A; auto. eapply need_bound; eauto.
      - intros sc Is. split; [intros v i X; eapply need_arg; eauto|intros v X; eapply need_extra; eauto]. }
    destruct (u_par _ _ _ UP p ltac:(congruence)) as (v & x & Nv & Rv & F). destruct (find_parent_named _ _ _ N0 F) as (hp & A & C).
    apply oh_in in A; auto. exists v, x, (hv_local hp), (hv_dims hp). split; auto. split; [now apply RF|auto].
  - intros Nq. destruct (k_min _ _ _ _ G _ _ Aq Nq) as (v & i & Ih & K & Ni). destruct (S3 _ Ih) as [[]|[X|(sc & Is & X)]]; [now contradiction Ni|].
    destruct (k_known _ _ _ _ G _ _ K) as [(hv & b & js & Ah & Rf & F) _]. destruct (find_parent_named _ _ _ N0 F) as (hp & A & C).
    apply oh_in in A, Ah; auto. destruct sc as [add args]. exists add, args, v, i, (hv_local hv), (hv_dims hv), b, js, (hv_local hp), (hv_dims hp). auto 10.
Qed.
Print Assumptions C144_nothing_else.

(* Refuted in the strong form "the cap leaves what no scheme writes": a scheme that
   writes one component of a derived type makes the whole variable intent(out), so
   that every other component becomes undefined in the call. *)
Theorem C144_component_out_refuted : forall h a b ds x p, NoDup (map fst h) -> readable h -> name b -> name x ->
  In (a, (b ++ "%"%char :: x, ds)) h -> In (p, (b, [])) h -> (forall p' n' ds', In (p', (n', ds')) h -> called b n' -> p' = p) ->
  forall st, stage (by_local (of_host h)) (of_host h) [([], [(a, IOut)])] = Ok st -> In (p, IOut) (g_par st).
Proof.
  intros h a b ds x p N R Nb Nx Ia Ip UQ st E. pose proof (oh_ref h N R) as RR. assert (N0 : NoDup (map fst (of_host h))) by now rewrite oh_keys.
  pose proof (defs_ok_start (of_host h)) as D0. 
  unfold stage, scheme in E. cbn [fold_st] in E. apply bind_ok in E as (s1 & E & [= <-]). apply bind_ok in E as (s2 & E1 & E2).
  unfold pass in E1. cbn [fst snd map g_add app fold_st] in E1. apply bind_ok in E1 as (s3 & E1 & [= <-]).
  unfold visit in E1. cbn [g_known assoc g_defs] in E1.
  assert (Aa : assoc (of_host h) a = Some (mkHV (b ++ "%"%char :: x) ds)) by (apply oh_in; auto). rewrite Aa in E1. cbn [hv_local] in E1.
  assert (Rf : ref (b ++ "%"%char :: x) b []) by (apply (ref_more b b [] x x []); [now apply comp_name|now apply ref_one, comp_name]).
  destruct (C142_parents_and_indices _ _ _ Rf) as (js & PI & _ & Q). rewrite PI in E1. cbn [bind fst snd] in E1.
  assert (js = []) as -> by (destruct js as [|y js]; auto; destruct (proj1 (Q y) (or_introl eq_refl))).
  cbn [fold_st] in E1. apply bind_ok in E1 as (s5 & E1 & [= <-]). unfold touch in E1.
  destruct (find_parent (by_local (of_host h)) b) as [p'|] eqn:F; [|discriminate].
  destruct (find_parent_named _ _ _ N0 F) as (hp & Ap & C). assert (p' = p).
  { pose proof Ap as Ap'. apply oh_in in Ap'; auto. eapply UQ; eauto. }
  subst p'. assert (hp = mkHV b []) as -> by (assert (X : assoc (of_host h) p = Some (mkHV b [])) by (apply oh_in; auto); congruence).
  cbn [g_defs g_add g_known g_par] in E1. rewrite Ap in E1. cbn [hv_dims map List.concat fold_st bind g_par g_known g_add g_defs assoc put] in E1.
  rewrite str_eqb_refl in E1. cbn [touch_intent] in E1. injection E1 as <-.
  unfold pass in E2. cbn [g_add map app fold_st] in E2. apply bind_ok in E2 as (s7 & E2 & [= <-]). unfold visit in E2. cbn [g_known assoc] in E2.
  rewrite str_eqb_refl in E2. cbn [g_par assoc] in E2. rewrite str_eqb_refl in E2. cbn [put] in E2. rewrite str_eqb_refl in E2. injection E2 as <-.
  now left.
Qed.
Print Assumptions C144_component_out_refuted.

(* ---------------------------------------------------------------- C145 *)
(* For a variable first needed by the scheme [s]: the bounds of the dimensions of
   the variable its name starts with are available -- the variable of each bound is
   an argument of the group cap. *)
Theorem C145_bounds_available_partial : forall h ss1 add args ss2 st v,
  NoDup (map fst h) -> readable h -> stage (by_local (of_host h)) (of_host h) (ss1 ++ (add, args) :: ss2) = Ok st ->
  In v add \/ In v (map fst args) -> ~ needed h integer ss1 v ->
  exists n ds b js p np dsp q, In (v, (n, ds)) h /\ ref n b js /\ In (p, (np, dsp)) h /\ called b np /\ In (p, q) (g_par st) /\
    forall d t, In d dsp -> In t (split_on ":"%char d) -> ~ integer (lower t) ->
      exists nt dst bt jt, In (lower t, (nt, dst)) h /\ ref nt bt jt /\ passed h (g_par st) bt (fun _ => True).
Proof.
  intros h ss1 add args ss2 st v N R E IV NV. pose proof (oh_ref h N R) as RR. assert (N0 : NoDup (map fst (of_host h))) by now rewrite oh_keys.
  assert (RF : forall v x, refers0 (of_host h) v x -> refers h v x).
  { intros w x (hv & b & i & A & Rf & X). apply oh_in in A; auto. exists (hv_local hv), (hv_dims hv), b, i. auto. }
  pose proof (defs_ok_start (of_host h)) as D0.
  destruct (stage_bounds (of_host h) N0 RR _ _ _ _ _ v D0 E IV) as (H & U & G & KV & KB).
  { intros st1 E1. assert (UP : up (of_host h) (needed h integer ss1) st1).
    { eapply stage_up; eauto.
      - intros w x p' hp d t Nv Rv F A Id It P. apply RF in Rv. destruct (find_parent_named _ _ _ N0 F) as (hp' & A' & C). assert (hp' = hp) by congruence. subst hp'.
        apply oh_in in A; auto. eapply need_bound; eauto.
      - intros sc Is. split; [intros w i X; eapply need_arg; eauto|intros w X; eapply need_extra; eauto]. }
    destruct (assoc (g_known st1) v) eqn:K; auto. exfalso. apply NV, (u_known _ _ _ UP). congruence. }
  assert (PAS : forall w p, assoc (g_known st) w = Some p -> exists hw b js hp q, assoc (of_host h) w = Some hw /\ ref (hv_local hw) b js /\
    assoc (of_host h) p = Some hp /\ called b (hv_local hp) /\ In (p, q) (g_par st)).
  { intros w p K. destruct (k_known _ _ _ _ G _ _ K) as [(hw & b & js & Ah & Rf & F) Q]. destruct (find_parent_named _ _ _ N0 F) as (hp & A & C).
    destruct (assoc (g_par st) p) as [q|] eqn:Aq; [|congruence]. exists hw, b, js, hp, q. repeat split; auto. now apply assoc_in. }
  destruct (assoc (g_known st) v) as [p|] eqn:K; [|congruence]. destruct (PAS v p K) as (hv & b & js & hp & q & Av & Rv & Ap & C & Iq).
  pose proof Av as Av'. pose proof Ap as Ap'. apply oh_in in Av', Ap'; auto.
  exists (hv_local hv), (hv_dims hv), b, js, p, (hv_local hp), (hv_dims hp), q. repeat split; auto.
  intros d t Id It P. assert (P' : py_int (lower t) = None) by (destruct (py_int (lower t)) eqn:X; auto; exfalso; apply P; unfold integer; congruence).
  pose proof (KB p hp d t K Ap Id It P') as KT. destruct (assoc (g_known st) (lower t)) as [pt|] eqn:Kt; [|congruence].
  destruct (PAS _ _ Kt) as (ht & bt & jt & hpt & qt & At & Rt & Apt & Ct & Iqt). apply oh_in in At, Apt; auto.
  exists (hv_local ht), (hv_dims ht), bt, jt. repeat split; auto. exists pt, (hv_local hpt), (hv_dims hpt), qt. auto.
Qed.
Print Assumptions C145_bounds_available_partial.

Ltac ref_name := apply ref_one, comp_name; name_tac.
Definition ex_host : host :=
  [(L "gfs_data", (L "Data(:)", [L "ccpp_block_count"])); (L "ccpp_block_count", (L "Ctl(tile)%nblk", []));
   (L "ctl", (L "Ctl(:)", [L "tile_count"])); (L "tile_number", (L "tile", [])); (L "tile_count", (L "ntiles", []));
   (L "block_number", (L "blk", [])); (L "air_temperature", (L "Data(blk)%t", [])); (L "surface_pressure", (L "Data(blk)%ps", []))].
Lemma ex_sub_ref b i : name b -> name i -> ref (b ++ "("%char :: i ++ [")"%char]) b [i].
Proof. intros B I. apply ref_one, comp_subs; auto. apply subs_one, sub_one, (part_ref i i []), ref_one, comp_name, I. Qed.
Lemma ex_elem_ref b i x : name b -> name i -> name x -> ref ((b ++ "("%char :: i ++ [")"%char]) ++ "%"%char :: x) b ([i] ++ []).
Proof. intros B I X. eapply ref_more; [apply comp_subs; auto; apply subs_one, sub_one, (part_ref i i []), ref_one, comp_name, I|now apply ref_one, comp_name]. Qed.
Lemma ex_colon_ref b : name b -> ref (b ++ "("%char :: L ":" ++ [")"%char]) b [].
Proof. intros B. apply ref_one, comp_subs; auto. apply subs_one. apply (sub_more [] [] [] []); [constructor|apply sub_one; constructor]. Qed.
Lemma ex_readable : readable ex_host.
Proof.
  intros v n ds I. cbn [ex_host In] in I.
  repeat match goal with H : _ \/ _ |- _ => destruct H as [H|H] end; try contradiction; injection I as <- <- <-.
  - exists (L "Data"), []. apply (ex_colon_ref (L "Data")). name_tac.
  - exists (L "Ctl"), [L "tile"]. apply (ex_elem_ref (L "Ctl") (L "tile") (L "nblk")); name_tac.
  - exists (L "Ctl"), []. apply (ex_colon_ref (L "Ctl")). name_tac.
  - exists (L "tile"), []. ref_name.
  - exists (L "ntiles"), []. ref_name.
  - exists (L "blk"), []. ref_name.
  - exists (L "Data"), [L "blk"]. apply (ex_elem_ref (L "Data") (L "blk") (L "t")); name_tac.
  - exists (L "Data"), [L "blk"]. apply (ex_elem_ref (L "Data") (L "blk") (L "ps")); name_tac.
Qed.
Lemma ex_nodup : NoDup (map fst ex_host).
Proof. repeat (constructor; [cbn; intuition discriminate|]). constructor. Qed.
Definition view (r : res gst) : res (list (str * intent)) := match r with Ok st => Ok (g_par st) | Raise e => Raise e end.
(* one scheme reads the temperature, the other writes the pressure *)
Example C144_example :
  view (stage (by_local (of_host ex_host)) (of_host ex_host) [([], [(L "air_temperature", IIn)]); ([], [(L "surface_pressure", IOut)])]) =
  Ok [(L "gfs_data", IInOut); (L "block_number", IIn); (L "ctl", IIn); (L "tile_number", IIn)] /\
  suite (of_host ex_host) [[[([], [(L "air_temperature", IIn)])]]; [[([], [(L "surface_pressure", IOut)])]]] [[]] =
  Ok [[(L "gfs_data", IInOut); (L "block_number", IIn); (L "ctl", IIn); (L "tile_number", IIn)]].
Proof. split; vm_compute; reflexivity. Qed.
Example C144_component_example :
  view (stage (by_local (of_host [(L "state", (L "S", [])); (L "air_temperature", (L "S%t", [])); (L "wind", (L "S%u", []))]))
     (of_host [(L "state", (L "S", [])); (L "air_temperature", (L "S%t", [])); (L "wind", (L "S%u", []))]) [([], [(L "air_temperature", IOut)])]) =
  Ok [(L "state", IOut)].
Proof. vm_compute; reflexivity. Qed.

(* Refuted for bounds of bounds: two passes reach the bound of the array that an
   argument is a part of, not the bound of the array which that bound is a part of.
   Here the cap has the array called Ctl, whose dimension is tile_count, but not the
   variable called ntiles. *)
Theorem C145_bounds_of_bounds_refuted : exists h ss st p q n ds d,
  NoDup (map fst h) /\ readable h /\ stage (by_local (of_host h)) (of_host h) ss = Ok st /\ In (p, q) (g_par st) /\ In (p, (n, ds)) h /\
  In d ds /\ ~ integer d /\ needed h integer ss d /\ ~ (forall nt dst bt jt, In (d, (nt, dst)) h -> ref nt bt jt -> passed h (g_par st) bt (fun _ => True)).
Proof.
  exists ex_host, [([], [(L "air_temperature", IIn)])].
  destruct (stage (by_local (of_host ex_host)) (of_host ex_host) [([], [(L "air_temperature", IIn)])]) as [st|e] eqn:E.
  2:{ exfalso. revert E. vm_compute. discriminate. }
  assert (G : g_par st = [(L "gfs_data", IIn); (L "block_number", IIn); (L "ctl", IIn); (L "tile_number", IIn)]).
  { revert E. vm_compute. intros [= <-]. reflexivity. }
  exists st, (L "ctl"), IIn, (L "Ctl(:)"), [L "tile_count"], (L "tile_count").
  split; [apply ex_nodup|]. split; [apply ex_readable|]. split; auto. split; [rewrite G; cbn; auto|]. split; [cbn; auto|]. split; [now left|].
  split; [intros X; apply X; vm_compute; reflexivity|]. split.
  - change (L "tile_count") with (lower (L "tile_count")).
    eapply (need_bound _ _ _ (L "ccpp_block_count") (L "Ctl") (L "ctl") (L "Ctl(:)") [L "tile_count"] (L "tile_count")).
    + change (L "ccpp_block_count") with (lower (L "ccpp_block_count")).
      eapply (need_bound _ _ _ (L "air_temperature") (L "Data") (L "gfs_data") (L "Data(:)") [L "ccpp_block_count"] (L "ccpp_block_count")).
      * eapply need_arg; [left; reflexivity|left; reflexivity].
      * exists (L "Data(blk)%t"), [], (L "Data"), [L "blk"]. split; [cbn; auto 10|]. split; [apply (ex_elem_ref (L "Data") (L "blk") (L "t")); name_tac|auto].
      * cbn; auto.
      * right. exists [L ":"]. split; [discriminate|]. split; [repeat constructor|reflexivity].
      * now left.
      * vm_compute. auto.
      * intros X; apply X; vm_compute; reflexivity.
    + exists (L "Ctl(tile)%nblk"), [], (L "Ctl"), [L "tile"]. split; [cbn; auto 10|]. split; [apply (ex_elem_ref (L "Ctl") (L "tile") (L "nblk")); name_tac|auto].
    + cbn; auto.
    + right. exists [L ":"]. split; [discriminate|]. split; [repeat constructor|reflexivity].
    + now left.
    + vm_compute. auto.
    + intros X; apply X; vm_compute; reflexivity.
  - intros H. assert (I : In (L "tile_count", (L "ntiles", [])) ex_host) by (cbn; auto 10).
    assert (Rn : ref (L "ntiles") (L "ntiles") []) by ref_name.
    destruct (H _ _ _ _ I Rn) as (p & n & ds & q & Ip & C & Iq & _). rewrite G in Iq. clear - Ip C Iq.
    assert (NN : name (L "ntiles")) by name_tac.
    assert (X : p = L "tile_count").
    { assert (EN : In (L "ntiles") (map (fun v => before_char "("%char (fst (snd v))) [(p, (n, ds))])).
      { left. cbn. destruct C as [->|(cs & _ & _ & ->)]; [reflexivity|]. apply before_char_at. intros Y; cbn in Y; intuition discriminate. }
      cbn in EN. destruct EN as [EN|[]]. cbn [ex_host In] in Ip.
      repeat match goal with H : _ \/ _ |- _ => destruct H as [H|H] end; try contradiction; injection Ip as <- <- <-; try reflexivity; vm_compute in EN; discriminate EN. }
    subst p. cbn in Iq. intuition discriminate.
Qed.
Print Assumptions C145_bounds_of_bounds_refuted.
(* C145_bounds_available_partial applies to ex_host: the first scheme's argument *)
Example C145_example : ~ needed ex_host integer ([] : list (list str * list (str * intent))) (L "air_temperature") /\
  view (stage (by_local (of_host ex_host)) (of_host ex_host) ([] ++ ([], [(L "air_temperature", IIn)]) :: [])) =
  Ok [(L "gfs_data", IIn); (L "block_number", IIn); (L "ctl", IIn); (L "tile_number", IIn)].
Proof.
  split; [|vm_compute; reflexivity]. intros X. assert (NO : forall v, ~ needed ex_host integer ([] : list (list str * list (str * intent))) v).
  { intros v Y. induction Y; auto. } exact (NO _ X).
Qed.
