(* The code written for a scheme whose names do not clash, and its execution. *)
From Coq Require Import List Ascii String ZArith QArith Bool Lia.
From Verif Require Import PyStr UnitModel VtModel VtSpec VtProofs.
Import ListNotations.
Open Scope nat_scope. Open Scope list_scope.

Lemma gather_ok (f : arg -> res (list trans)) (p : arg -> bool) (t : arg -> trans) (l : list arg) :
  (forall a, In a l -> f a = Ok (if p a then [t a] else [])) -> gather f l = Ok (map t (List.filter p l)).
Proof.
  induction l as [|a l IH]; intros H; [reflexivity|]. cbn. rewrite (H a (or_introl eq_refl)). cbn.
  rewrite IH by (intros; apply H; now right). cbn. now destruct (p a).
Qed.
Lemma emit_ok {A} (f : A -> res stmt) (s : A -> stmt) (l : list A) :
  (forall a, In a l -> f a = Ok (s a)) -> emit f l = Ok (map s l).
Proof.
  induction l as [|a l IH]; intros H; [reflexivity|]. cbn. rewrite (H a (or_introl eq_refl)). cbn.
  rewrite IH by (intros; apply H; now right). reflexivity.
Qed.
Lemma flat_ok {A B} (f : A -> list B) (p : A -> bool) (t : A -> B) (l : list A) :
  (forall a, In a l -> f a = if p a then [t a] else []) -> flat_map f l = map t (List.filter p l).
Proof.
  induction l as [|a l IH]; intros H; [reflexivity|]. cbn. rewrite (H a (or_introl eq_refl)).
  rewrite IH by (intros; apply H; now right). now destruct (p a).
Qed.
Lemma actuals_ok g rev (l : list arg) (n : arg -> str) :
  (forall a, In a l -> actual g rev a = Ok (a_lname a, a_intent a, n a)) ->
  actuals g rev l = Ok (map (fun a => (a_lname a, a_intent a, n a)) l).
Proof.
  induction l as [|a l IH]; intros H; [reflexivity|]. cbn. rewrite (H a (or_introl eq_refl)). cbn.
  rewrite IH by (intros; apply H; now right). reflexivity.
Qed.

Definition is_out a := intent_eqb (a_intent a) Out_.
Definition is_in a := intent_eqb (a_intent a) In_.
Definition wrev a := has_transform a && negb (is_out a).
Definition wfwd a := has_transform a && negb (is_in a).
Definition hosted a := match a_host a with Some _ => true | None => false end.
Definition cond_of a := match a_host a with Some h => h_cond h | None => [] end.
Definition rtmpl a := match a_host a with Some h => option_map snd (h_unit h) | None => None end.
Definition ftmpl a := match a_host a with Some h => option_map fst (h_unit h) | None => None end.
Definition secs (hi : arg -> str) (a : arg) : section * section :=
  match a_vert a with
  | None => (SAll, SAll)
  | Some (s, _) => (SUp s (hi a), if opposite a then SDown (hi a) s else SUp s (hi a))
  end.
Definition revT hi a := mkT (local_of a) (a_std a) (fst (secs hi a)) (snd (secs hi a)) (rtmpl a).
Definition fwdT hi a := mkT (local_of a) (a_std a) (fst (secs hi a)) (snd (secs hi a)) (ftmpl a).
Definition act (gn : arg -> str) a : str :=
  if wrev a then local_of a else if a_opt a then ptr_of a else gn a.
Definition lside a := if has_transform a then local_of a else a_lname a.

Lemma subst_name_none n l s : ~ In n (map t_std l) -> subst_name n l s = s.
Proof.
  revert s; induction l as [|t l IH]; intros s H; [reflexivity|]. unfold subst_name in *. cbn in *.
  destruct (str_eqb (t_std t) n) eqn:E; [apply str_eqb_eq in E; exfalso; auto|apply IH; auto].
Qed.
Lemma subst_name_in n l s t : NoDup (map t_std l) -> In t l -> t_std t = n -> subst_name n l s = t_local t.
Proof.
  revert s; induction l as [|x l IH]; intros s N I E; [contradiction|]. inversion N; subst.
  unfold subst_name. cbn [fold_left]. destruct I as [->|I].
  - rewrite str_eqb_refl. apply subst_name_none. assumption.
  - apply IH; auto.
Qed.
Lemma nd_filter_map {A B} (f : A -> B) p (l : list A) : NoDup (map f l) -> NoDup (map f (List.filter p l)).
Proof.
  induction l as [|a l IH]; cbn; intros N; [constructor|]. inversion N; subst.
  destruct (p a); cbn; [constructor; [|auto]|auto].
  intros I. apply H1. apply in_map_iff in I. destruct I as (x & E & I). rewrite <- E.
  apply filter_In in I. now apply in_map.
Qed.

Section R.
Variable truth : str -> bool.
Variable iv : str -> Z.
Variable sch : scheme.
Variable g : VtModel.group.
Variable gn hi : arg -> str.
Variable as_ : list arg.
Variable m : store.
Hypothesis R : ready truth g gn hi as_ m.

Lemma calls_nd : NoDup (map fst (calls g)).
Proof.
  pose proof (r_keys _ _ _ _ _ _ R) as H. revert H. generalize (map fst (own g)) as o.
  induction o as [|x o IH]; cbn; intros N; [exact N|]. inversion N; subst. auto.
Qed.
Lemma own_nd : NoDup (map fst (own g)).
Proof.
  pose proof (r_keys _ _ _ _ _ _ R) as H. revert H. generalize (map fst (calls g)) as c.
  generalize (map fst (own g)) as o. induction o as [|x o IH]; cbn; intros c N; [constructor|].
  inversion N; subst. constructor; [|eauto]. intros I. apply H1. apply in_or_app. now left.
Qed.
Lemma not_own n e : In (n, e) (calls g) -> find (own g) n = None.
Proof.
  intros I. apply find_none. intros I'. apply (in_map fst) in I. cbn in I.
  pose proof (r_keys _ _ _ _ _ _ R) as H. revert H I I'. generalize (map fst (calls g)) as c.
  generalize (map fst (own g)) as o. induction o as [|x o IH]; cbn; intros c N Ic Io; [contradiction|].
  inversion N; subst. destruct Io as [->|Io]; [apply H1; apply in_or_app; now right|eauto].
Qed.
Lemma find_call a : In a as_ -> hosted a = true -> find (calls g) (a_std a) = Some (mkGE (gn a) (a_opt a)).
Proof.
  intros I H. pose proof (r_in _ _ _ _ _ _ R a I) as E. unfold hosted in H.
  destruct (a_host a); [|discriminate]. apply find_in; [apply calls_nd|exact E].
Qed.
Lemma lookup_ok a : In a as_ -> lookup g (a_std a) = Some (mkGE (gn a) (a_opt a)).
Proof.
  intros I. pose proof (r_in _ _ _ _ _ _ R a I) as E. unfold lookup. destruct (a_host a) eqn:Eh.
  - rewrite (not_own _ _ E). rewrite find_call by (auto; unfold hosted; now rewrite Eh). reflexivity.
  - rewrite (find_in _ _ _ own_nd E). reflexivity.
Qed.
Lemma sections_ok a h : In a as_ -> a_host a = Some h -> sections g a h = Ok (secs hi a).
Proof.
  intros I E. unfold sections, secs, opposite. rewrite E. destruct (a_vert a) as [(s, e)|] eqn:Ev; [|reflexivity].
  destruct (r_end _ _ _ _ _ _ R a s e I Ev) as (o & Ie).
  rewrite (find_in _ _ _ calls_nd Ie). reflexivity.
Qed.

Definition cv_rev a := mkCv (local_of a) (fst (secs hi a)) (gn a) (snd (secs hi a)) (rtmpl a).
Definition cv_fwd a := mkCv (gn a) (snd (secs hi a)) (local_of a) (fst (secs hi a)) (ftmpl a).
Definition aso_of a := mkAs (cond_of a) (ptr_of a) (lside a).
Definition code : list stmt :=
  map cv_stmt (map cv_rev (List.filter wrev as_)) ++
  map as_stmt (map aso_of (List.filter (fun a => a_opt a && hosted a) as_)) ++
  [SCall (map (fun a => (a_lname a, a_intent a, act gn a)) as_)] ++
  map cp_stmt (map aso_of (List.filter (fun a => a_opt a && hosted a && negb (is_in a)) as_)) ++
  map cv_stmt (map cv_fwd (List.filter wfwd as_)).

Lemma code_ok : scheme_code g as_ = Ok code.
Proof.
  unfold scheme_code.
  rewrite (gather_ok (reverse_of g) wrev (revT hi)).
  2: { intros a I. unfold reverse_of, wrev, revT, rtmpl. destruct (a_host a) as [h|] eqn:E.
       - unfold is_out. destruct (has_transform a); [|reflexivity]. rewrite (sections_ok a h I E). cbn.
         now destruct (intent_eqb (a_intent a) Out_).
       - unfold has_transform. now rewrite E. }
  rewrite (gather_ok (forward_of g) wfwd (fwdT hi)).
  2: { intros a I. unfold forward_of, wfwd, fwdT, ftmpl. destruct (a_host a) as [h|] eqn:E.
       - unfold is_in. destruct (has_transform a); [|reflexivity]. rewrite (sections_ok a h I E). cbn.
         now destruct (intent_eqb (a_intent a) In_).
       - unfold has_transform. now rewrite E. }
  cbn [bind].
  rewrite (actuals_ok g _ as_ (act gn)).
  2: { intros a I. unfold actual. rewrite (lookup_ok a I). f_equal. f_equal. unfold act. cbn [g_opt g_name].
       destruct (wrev a) eqn:W.
       - assert (Ia : In a (List.filter wrev as_)) by (apply filter_In; auto).
         rewrite (subst_name_in _ _ _ (revT hi a)); [reflexivity| |now apply in_map|reflexivity].
         rewrite map_map. cbn. apply nd_filter_map, (r_std _ _ _ _ _ _ R).
       - apply subst_name_none. rewrite map_map. cbn. intros Ix. apply in_map_iff in Ix.
         destruct Ix as (x & Ex & Ix). apply filter_In in Ix. destruct Ix as (Ix & Wx).
         rewrite (nd_inj a_std as_ x a (r_std _ _ _ _ _ _ R) Ix I Ex) in Wx. congruence. }
  cbn [bind].
  rewrite (emit_ok (write_reverse g) (fun t => match find (calls g) (t_std t) with Some e => SConv (t_local t) (t_lsec t) (g_name e) (t_vsec t) (t_tmpl t) | None => SCall [] end)).
  2: { intros t It. apply in_map_iff in It. destruct It as (a & <- & Ia). apply filter_In in Ia. destruct Ia as (Ia & W).
       unfold write_reverse, revT. cbn. rewrite find_call; [reflexivity|exact Ia|].
       unfold wrev in W. apply andb_true_iff in W. destruct W as (W & _). destruct (transformed_host a W) as (h & Eh).
       unfold hosted. now rewrite Eh. }
  cbn [bind].
  rewrite (emit_ok (write_forward g) (fun t => match find (calls g) (t_std t) with Some e => SConv (g_name e) (t_vsec t) (t_local t) (t_lsec t) (t_tmpl t) | None => SCall [] end)).
  2: { intros t It. apply in_map_iff in It. destruct It as (a & <- & Ia). apply filter_In in Ia. destruct Ia as (Ia & W).
       unfold write_forward, fwdT. cbn. rewrite find_call; [reflexivity|exact Ia|].
       unfold wfwd in W. apply andb_true_iff in W. destruct W as (W & _). destruct (transformed_host a W) as (h & Eh).
       unfold hosted. now rewrite Eh. }
  cbn [bind]. unfold code. f_equal. f_equal; [|f_equal; [|f_equal; f_equal]].
  - rewrite !map_map. apply map_ext_in. intros a Ia. apply filter_In in Ia. destruct Ia as (Ia & W).
    unfold revT. cbn. rewrite find_call; [reflexivity|exact Ia|].
    unfold wrev in W. apply andb_true_iff in W. destruct W as (W & _). destruct (transformed_host a W) as (h & Eh).
    unfold hosted. now rewrite Eh.
  - rewrite map_map. apply flat_ok. intros a Ia. unfold associate, hosted, as_stmt, aso_of, cond_of, lside. cbn.
    destruct (a_opt a), (a_host a); reflexivity.
  - rewrite map_map. apply flat_ok. intros a Ia. unfold copy_back, hosted, cp_stmt, aso_of, cond_of, lside, is_in. cbn.
    destruct (a_opt a), (a_host a), (a_intent a); reflexivity.
  - rewrite !map_map. apply map_ext_in. intros a Ia. apply filter_In in Ia. destruct Ia as (Ia & W).
    unfold fwdT. cbn. rewrite find_call; [reflexivity|exact Ia|].
    unfold wfwd in W. apply andb_true_iff in W. destruct W as (W & _). destruct (transformed_host a W) as (h & Eh).
    unfold hosted. now rewrite Eh.
Qed.

(* ---- names ---- *)
Lemma gn_inj a b : In a as_ -> In b as_ -> gn a = gn b -> a = b.
Proof. apply nd_inj, (r_gn _ _ _ _ _ _ R). Qed.
Lemma ln_inj a b : In a as_ -> In b as_ -> a_lname a = a_lname b -> a = b.
Proof. apply nd_inj, (r_lname _ _ _ _ _ _ R). Qed.
Lemma gn_local a b : In a as_ -> In b as_ -> has_transform b = true -> gn a <> local_of b.
Proof. intros Ia Ib T. apply (r_local _ _ _ _ _ _ R a b Ia Ib). now apply transformed_iff. Qed.
Lemma gn_ptr a b : In a as_ -> In b as_ -> a_opt b = true -> gn a <> ptr_of b.
Proof. intros Ia Ib T. exact (r_ptr _ _ _ _ _ _ R a b Ia Ib T). Qed.

Definition on a := match a_host a with Some h => truth (h_cond h) | None => false end.
Lemma on_active a : on a = true <-> active truth a.
Proof.
  unfold on, active. destruct (a_host a) as [h|].
  - split; [intros H; eauto|intros (h' & E & T); now injection E as <-].
  - split; [discriminate|intros (h & E & _); discriminate].
Qed.
Definition tgt a : option str :=
  if wrev a then Some (local_of a)
  else if a_opt a then (if on a then Some (if has_transform a then local_of a else gn a) else None)
  else Some (gn a).
Lemma tgt_cases a n : In a as_ -> tgt a = Some n -> (n = gn a) \/ (has_transform a = true /\ n = local_of a).
Proof.
  intros I. unfold tgt, wrev. destruct (has_transform a), (is_out a), (a_opt a), (on a); cbn; intros E;
    try discriminate; injection E as <-; auto.
Qed.
Lemma tgt_inj a b n : In a as_ -> In b as_ -> tgt a = Some n -> tgt b = Some n -> a = b.
Proof.
  intros Ia Ib Ha Hb. apply tgt_cases in Ha; [|exact Ia]. apply tgt_cases in Hb; [|exact Ib].
  destruct Ha as [->|(Ta & ->)], Hb as [E|(Tb & E)].
  - now apply gn_inj.
  - exfalso. now apply (gn_local a b Ia Ib Tb).
  - exfalso. now apply (gn_local b a Ib Ia Ta).
  - apply ln_inj; auto. now apply local_inj.
Qed.

Lemma gn_arr a : In a as_ -> (a_opt a = false \/ on a = true) -> exists c, m (gn a) = Arr c.
Proof.
  intros I H. apply (r_present _ _ _ _ _ _ R a I). destruct H as [H|H]; [now left|right; now apply on_active].
Qed.
Lemma trans_on a : In a as_ -> has_transform a = true -> a_opt a = false \/ on a = true.
Proof.
  intros I T. destruct (a_opt a) eqn:E; [right|now left]. apply on_active.
  apply (r_inactive _ _ _ _ _ _ R a I); [now apply transformed_iff|exact E].
Qed.
Lemma local_arr a : In a as_ -> has_transform a = true -> exists c, m (local_of a) = Arr c.
Proof. intros I T. apply (r_copy _ _ _ _ _ _ R a I). now apply transformed_iff. Qed.

Definition seen_of (m1 : store) (a : arg) : seen :=
  match tgt a with
  | None => Absent
  | Some t => Present (if is_out a then fun _ => None else contents m1 t)
  end.

Definition m1_local a : arr :=
  section_assign iv (fst (secs hi a)) (snd (secs hi a)) (rtmpl a) (contents m (local_of a)) (contents m (gn a)).

Lemma run_ready : exists m1 m3 m',
  let v := map (fun a => (a_lname a, seen_of m1 a)) as_ in
  run_scheme truth iv sch code 0 m = Some (m', [v]) /\
  (forall a, In a as_ -> wrev a = true -> m1 (local_of a) = Arr (m1_local a)) /\
  (forall n, (forall a, In a as_ -> wrev a = true -> n <> local_of a) -> m1 n = m n) /\
  (forall a n, In a as_ -> tgt a = Some n -> is_in a = false -> m3 n = Arr (sch v (a_lname a))) /\
  (forall n, (forall a, In a as_ -> tgt a = Some n -> is_in a = true) -> (forall a, In a as_ -> a_opt a = true -> n <> ptr_of a) -> m3 n = m1 n) /\
  (forall a, In a as_ -> wfwd a = true ->
     m' (gn a) = Arr (section_assign iv (snd (secs hi a)) (fst (secs hi a)) (ftmpl a) (contents m3 (gn a)) (contents m3 (local_of a)))) /\
  (forall n, (forall a, In a as_ -> wfwd a = true -> n <> gn a) -> m' n = m3 n).
Proof.
  (* pre *)
  destruct (conv_run truth iv sch (map cv_rev (List.filter wrev as_)) m []) as (m1 & E1 & A1 & O1).
  { rewrite map_map. cbn. assert (N : NoDup (map local_of as_)).
    { pose proof (r_lname _ _ _ _ _ _ R) as N. revert N. clear R. induction as_ as [|a l IH]; cbn; intros N; [constructor|].
      inversion N; subst. constructor; [|auto]. intros I. apply in_map_iff in I. destruct I as (b & Eb & Ib).
      apply local_inj in Eb. apply H1. rewrite <- Eb. now apply in_map. }
    now apply nd_filter_map. }
  { intros c d Ic Id. apply in_map_iff in Ic. apply in_map_iff in Id. destruct Ic as (a & <- & Ia), Id as (b & <- & Ib).
    apply filter_In in Ia. apply filter_In in Ib. destruct Ia as (Ia & Wa), Ib as (Ib & Wb). cbn.
    apply not_eq_sym, gn_local; auto. unfold wrev in Wa. now apply andb_true_iff in Wa. }
  { intros c Ic. apply in_map_iff in Ic. destruct Ic as (a & <- & Ia). apply filter_In in Ia. destruct Ia as (Ia & Wa).
    cbn. apply local_arr; auto. unfold wrev in Wa. now apply andb_true_iff in Wa. }
  { intros c Ic. apply in_map_iff in Ic. destruct Ic as (a & <- & Ia). apply filter_In in Ia. destruct Ia as (Ia & Wa).
    cbn. apply gn_arr; auto. apply trans_on; auto. unfold wrev in Wa. now apply andb_true_iff in Wa. }
  assert (O1' : forall n, (forall a, In a as_ -> wrev a = true -> n <> local_of a) -> m1 n = m n).
  { intros n Hn. apply O1. rewrite map_map. cbn. intros I. apply in_map_iff in I. destruct I as (a & Ea & Ia).
    apply filter_In in Ia. destruct Ia as (Ia & Wa). now apply (Hn a Ia Wa). }
  assert (G1 : forall a, In a as_ -> m1 (gn a) = m (gn a)).
  { intros a Ia. apply O1'. intros b Ib Wb. apply gn_local; auto. unfold wrev in Wb. now apply andb_true_iff in Wb. }
  assert (P1 : forall a, In a as_ -> m1 (ptr_of a) = m (ptr_of a)).
  { intros a Ia. apply O1'. intros b Ib Wb. apply not_eq_sym, local_ptr. }
  assert (L1 : forall a, In a as_ -> has_transform a = true -> exists c, m1 (local_of a) = Arr c).
  { intros a Ia T. destruct (wrev a) eqn:W.
    - exists (section_assign iv (fst (secs hi a)) (snd (secs hi a)) (rtmpl a) (contents m (local_of a)) (contents m (gn a))).
      apply (A1 (cv_rev a)). apply in_map. apply filter_In. auto.
    - rewrite O1'; [now apply local_arr|]. intros b Ib Wb Eb. apply local_inj in Eb. apply ln_inj in Eb; auto. congruence. }
  (* association *)
  assert (LS : forall a, In a as_ -> a_opt a = true -> lside a = if has_transform a then local_of a else gn a).
  { intros a Ia Oa. unfold lside. destruct (has_transform a) eqn:T; [reflexivity|].
    symmetry. apply (r_name _ _ _ _ _ _ R a Ia Oa). rewrite transformed_iff. congruence. }
  destruct (assoc_run truth iv sch (map aso_of (List.filter (fun a => a_opt a && hosted a) as_)) m1 []) as (m2 & E2 & A2 & O2).
  { rewrite map_map. cbn. assert (N : NoDup (map ptr_of as_)).
    { pose proof (r_lname _ _ _ _ _ _ R) as N. revert N. clear. induction as_ as [|a l IH]; cbn; intros N; [constructor|].
      inversion N; subst. constructor; [|auto]. intros I. apply in_map_iff in I. destruct I as (b & Eb & Ib).
      apply ptr_inj in Eb. apply H1. rewrite <- Eb. now apply in_map. }
    now apply nd_filter_map. }
  { intros c d Ic Id. apply in_map_iff in Ic. apply in_map_iff in Id. destruct Ic as (a & <- & Ia), Id as (b & <- & Ib).
    apply filter_In in Ia. apply filter_In in Ib. destruct Ia as (Ia & Wa), Ib as (Ib & Wb). cbn.
    apply andb_true_iff in Wa. apply andb_true_iff in Wb. rewrite LS by tauto.
    destruct (has_transform b) eqn:T; [apply not_eq_sym, local_ptr|apply not_eq_sym, gn_ptr; tauto]. }
  { intros c Ic. apply in_map_iff in Ic. destruct Ic as (a & <- & Ia). apply filter_In in Ia. destruct Ia as (Ia & Wa).
    apply andb_true_iff in Wa. cbn. rewrite P1 by exact Ia. apply (r_null _ _ _ _ _ _ R a Ia). tauto. }
  { intros c Ic Tc. apply in_map_iff in Ic. destruct Ic as (a & <- & Ia). apply filter_In in Ia. destruct Ia as (Ia & Wa).
    apply andb_true_iff in Wa. destruct Wa as (Oa & Ha). cbn in Tc |- *. rewrite LS by auto.
    destruct (has_transform a) eqn:T; [now apply L1|]. rewrite G1 by exact Ia. apply gn_arr; [exact Ia|right].
    unfold on. unfold cond_of in Tc. unfold hosted in Ha. destruct (a_host a); [exact Tc|discriminate]. }
  assert (O2' : forall n, (forall a, In a as_ -> a_opt a = true -> n <> ptr_of a) -> m2 n = m1 n).
  { intros n Hn. apply O2. rewrite map_map. cbn. intros I. apply in_map_iff in I. destruct I as (a & Ea & Ia).
    apply filter_In in Ia. destruct Ia as (Ia & Wa). apply andb_true_iff in Wa. now apply (Hn a Ia (proj1 Wa)). }
  assert (G2 : forall a, In a as_ -> m2 (gn a) = m (gn a)).
  { intros a Ia. rewrite O2'; [now apply G1|]. intros b Ib Ob. now apply gn_ptr. }
  assert (L2 : forall a, In a as_ -> m2 (local_of a) = m1 (local_of a)).
  { intros a Ia. apply O2'. intros b Ib Ob. apply local_ptr. }
  assert (P2 : forall a, In a as_ -> a_opt a = true -> m2 (ptr_of a) = if on a then PTo (lside a) else PNull).
  { intros a Ia Oa. destruct (hosted a) eqn:Ha.
    - change (ptr_of a) with (s_p (aso_of a)). rewrite (A2 (aso_of a)); [|apply in_map, filter_In; split; [exact Ia|now rewrite Oa, Ha]]. cbn.
      unfold on, cond_of. unfold hosted in Ha. destruct (a_host a); [reflexivity|discriminate].
    - unfold on. assert (Eh : a_host a = None) by (unfold hosted in Ha; destruct (a_host a); [discriminate|reflexivity]). rewrite Eh.
      rewrite O2; [rewrite P1 by exact Ia; now apply (r_null _ _ _ _ _ _ R a Ia)|].
      rewrite map_map. cbn. intros I. apply in_map_iff in I. destruct I as (b & Eb & Ib). apply filter_In in Ib.
      destruct Ib as (Ib & Wb). apply ptr_inj in Eb. apply ln_inj in Eb; auto. subst b. rewrite Ha, andb_false_r in Wb. discriminate. }
  (* the call *)
  assert (TG : forall a, In a as_ -> target m2 (act gn a) = Some (tgt a)).
  { intros a Ia. unfold act, tgt, target. destruct (wrev a) eqn:W.
    - rewrite L2 by exact Ia. destruct (L1 a Ia) as (c & ->); [|reflexivity].
      unfold wrev in W. now apply andb_true_iff in W.
    - destruct (a_opt a) eqn:Oa.
      + rewrite P2 by auto. destruct (on a) eqn:On; [|reflexivity]. rewrite (LS a Ia Oa).
        destruct (has_transform a) eqn:T.
        * rewrite L2 by exact Ia. destruct (L1 a Ia T) as (c & ->). reflexivity.
        * rewrite G2 by exact Ia. destruct (gn_arr a Ia (or_intror On)) as (c & ->). reflexivity.
      + rewrite G2 by exact Ia. destruct (gn_arr a Ia (or_introl Oa)) as (c & ->). reflexivity. }
  set (ts := map (fun a => (a_lname a, a_intent a, tgt a)) as_).
  assert (E3 : resolve m2 (map (fun a => (a_lname a, a_intent a, act gn a)) as_) = Some ts).
  { apply (resolve_ok m2 (fun a => (a_lname a, a_intent a, act gn a)) tgt). exact TG. }
  set (v := map (fun a => (a_lname a, seen_of m1 a)) as_).
  assert (SV : map (sees m2) ts = v).
  { unfold ts, v. rewrite map_map. apply map_ext_in. intros a Ia. unfold sees, seen_of, is_out. destruct (tgt a) as [t|] eqn:Et; [|reflexivity].
    destruct (intent_eqb (a_intent a) Out_); [reflexivity|]. f_equal. f_equal. unfold contents.
    apply tgt_cases in Et; [|exact Ia]. destruct Et as [->|(T & ->)]; [rewrite G2, G1 by exact Ia|rewrite L2 by exact Ia]; reflexivity. }
  set (m3 := fold_left (give_back (sch v)) ts m2).
  assert (A3 : forall a n, In a as_ -> tgt a = Some n -> is_in a = false -> m3 n = Arr (sch v (a_lname a))).
  { intros a n Ia Ta Na. apply (give_same (sch v) ts m2 (a_lname a) (a_intent a) n).
    - unfold ts. apply in_map_iff. exists a. now rewrite Ta.
    - intros E. unfold is_in in Na. rewrite E in Na. discriminate.
    - intros d' it' I'. unfold ts in I'. apply in_map_iff in I'. destruct I' as (b & Eb & Ib).
      injection Eb as <- <- Tb. rewrite (tgt_inj b a n Ib Ia Tb Ta). auto. }
  assert (O3 : forall n, (forall a, In a as_ -> tgt a = Some n -> is_in a = true) -> m3 n = m2 n).
  { intros n Hn. apply give_other. intros d it I. unfold ts in I. apply in_map_iff in I. destruct I as (b & Eb & Ib).
    injection Eb as <- <- Tb. specialize (Hn b Ib Tb). unfold is_in in Hn. destruct (a_intent b); [reflexivity|discriminate|discriminate]. }
  assert (M3 : forall n c, m2 n = Arr c -> exists c', m3 n = Arr c').
  { intros n c Hc. unfold m3. clear - Hc. revert n c Hc. generalize m2 as mm. induction ts as [|((d, it), [t|]) l IH]; cbn; intros mm n c Hc; eauto.
    destruct (intent_eqb it In_); [eauto|]. destruct (str_eqb n t) eqn:E.
    - apply str_eqb_eq in E. subst. eapply IH. apply mset_same.
    - eapply IH. rewrite mset_other; [exact Hc|]. intros ->. rewrite str_eqb_refl in E. discriminate. }
  (* copies *)
  destruct (copy_run truth iv sch (map aso_of (List.filter (fun a => a_opt a && hosted a && negb (is_in a)) as_)) m3 [v]) as (m4 & E4 & A4).
  { intros x Ix Tx. apply in_map_iff in Ix. destruct Ix as (a & <- & Ia). apply filter_In in Ia. destruct Ia as (Ia & Wa).
    apply andb_true_iff in Wa. destruct Wa as (Wa & _). apply andb_true_iff in Wa. destruct Wa as (Oa & Ha). cbn in *.
    assert (On : on a = true) by (unfold on; unfold cond_of in Tx; unfold hosted in Ha; destruct (a_host a); [exact Tx|discriminate]).
    split.
    - rewrite O3; [rewrite P2 by auto; now rewrite On|]. intros b Ib Tb. apply tgt_cases in Tb; [|exact Ib].
      exfalso. destruct Tb as [E|(T & E)]; [symmetry in E; now apply (gn_ptr b a) in E|symmetry in E; now apply local_ptr in E].
    - rewrite LS by auto. destruct (has_transform a) eqn:T.
      + destruct (L1 a Ia T) as (c & Ec). apply (M3 _ c). now rewrite L2.
      + destruct (gn_arr a Ia (or_intror On)) as (c & Ec). apply (M3 _ c). now rewrite G2. }
  (* forward *)
  destruct (conv_run truth iv sch (map cv_fwd (List.filter wfwd as_)) m4 [v]) as (m5 & E5 & A5 & O5).
  { rewrite map_map. cbn. apply nd_filter_map, (r_gn _ _ _ _ _ _ R). }
  { intros c d Ic Id. apply in_map_iff in Ic. apply in_map_iff in Id. destruct Ic as (a & <- & Ia), Id as (b & <- & Ib).
    apply filter_In in Ia. apply filter_In in Ib. destruct Ia as (Ia & Wa), Ib as (Ib & Wb). cbn.
    apply gn_local; auto. unfold wfwd in Wb. now apply andb_true_iff in Wb. }
  { intros c Ic. apply in_map_iff in Ic. destruct Ic as (a & <- & Ia). apply filter_In in Ia. destruct Ia as (Ia & Wa).
    cbn. rewrite A4. unfold wfwd in Wa. apply andb_true_iff in Wa. destruct (gn_arr a Ia (trans_on a Ia (proj1 Wa))) as (x & Ex).
    apply (M3 _ x). now rewrite G2. }
  { intros c Ic. apply in_map_iff in Ic. destruct Ic as (a & <- & Ia). apply filter_In in Ia. destruct Ia as (Ia & Wa).
    cbn. rewrite A4. unfold wfwd in Wa. apply andb_true_iff in Wa. destruct (L1 a Ia (proj1 Wa)) as (x & Ex).
    apply (M3 _ x). now rewrite L2. }
  exists m1, m3, m5. cbv zeta. fold v. repeat apply conj.
  - unfold run_scheme, code. change ((0 =? 0)%Z) with true. cbv iota. eapply exec_chain; [exact E1|]. eapply exec_chain; [exact E2|].
    eapply exec_chain; [|eapply exec_chain; [exact E4|exact E5]]. cbn [exec exec1]. rewrite E3, SV. reflexivity.
  - intros a Ia Wa. apply (A1 (cv_rev a)). apply in_map, filter_In. auto.
  - exact O1'.
  - exact A3.
  - intros n Hn Hp. rewrite O3 by exact Hn. now apply O2'.
  - intros a Ia Wa. change (gn a) with (c_l (cv_fwd a)) at 1. rewrite (A5 (cv_fwd a)) by (apply in_map, filter_In; auto). cbn. unfold contents. now rewrite !A4.
  - intros n Hn. rewrite O5; [apply A4|]. rewrite map_map. cbn. intros I. apply in_map_iff in I. destruct I as (a & Ea & Ia).
    apply filter_In in Ia. destruct Ia as (Ia & Wa). now apply (Hn a Ia Wa).
Qed.
End R.
