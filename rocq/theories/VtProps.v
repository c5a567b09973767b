(* Properties of the code written around the call of a scheme in a group cap. *)
From Coq Require Import List Ascii String ZArith QArith Bool Lia.
From Verif Require Import PyStr UnitModel UnitProps VtModel VtSpec VtProofs VtRun.
Import ListNotations.
Open Scope nat_scope. Open Scope list_scope.

Lemma conv_to_scheme a x : convert (rtmpl a) x = to_scheme a x.
Proof. unfold convert, rtmpl, to_scheme. destruct (a_host a) as [h|]; [destruct (h_unit h) as [(f, r)|]|]; destruct x; reflexivity. Qed.
Lemma conv_to_host a x : convert (ftmpl a) x = to_host a x.
Proof. unfold convert, ftmpl, to_host. destruct (a_host a) as [h|]; [destruct (h_unit h) as [(f, r)|]|]; destruct x; reflexivity. Qed.

Lemma assign_in iv hi a t l r i : in_range (range_of iv hi a) i ->
  section_assign iv (fst (secs hi a)) (snd (secs hi a)) t l r i
  = convert t (r (same_level (range_of iv hi a) (opposite a) i)).
Proof.
  unfold range_of, secs, section_assign, same_level. destruct (a_vert a) as [(s, e)|]; cbn; [|reflexivity].
  intros (H1 & H2). apply Z.leb_le in H1. apply Z.leb_le in H2. rewrite H1, H2. cbn.
  destruct (opposite a); cbn; do 2 f_equal; lia.
Qed.
Lemma assign_out iv hi a t l r i : in_range (range_of iv hi a) i ->
  section_assign iv (snd (secs hi a)) (fst (secs hi a)) t l r (same_level (range_of iv hi a) (opposite a) i)
  = convert t (r i).
Proof.
  unfold range_of, secs, section_assign, same_level. destruct (a_vert a) as [(s, e)|]; cbn; [|reflexivity].
  intros (H1 & H2). destruct (opposite a); cbn.
  - replace (iv s <=? iv s + iv (hi a) - i)%Z with true by (symmetry; apply Z.leb_le; lia).
    replace (iv s + iv (hi a) - i <=? iv (hi a))%Z with true by (symmetry; apply Z.leb_le; lia). cbn.
    do 2 f_equal. lia.
  - apply Z.leb_le in H1. apply Z.leb_le in H2. rewrite H1, H2. cbn. do 2 f_equal. lia.
Qed.

Section P.
Variable truth : str -> bool.
Variable iv : str -> Z.
Variable sch : scheme.
Variable g : VtModel.group.
Variable gn hi : arg -> str.
Variable as_ : list arg.
Variable m m' : store.
Variable code : list stmt.
Variable v : list (str * seen).

Hypothesis R : ready truth g gn hi as_ m.
Hypothesis C : scheme_code g as_ = Ok code.
Hypothesis X : run_scheme truth iv sch code 0 m = Some (m', [v]).

Lemma the_run : exists m1 m3,
  v = map (fun a => (a_lname a, seen_of truth gn m1 a)) as_ /\
  (forall a, In a as_ -> wrev a = true -> m1 (local_of a) = Arr (m1_local iv gn hi m a)) /\
  (forall n, (forall a, In a as_ -> wrev a = true -> n <> local_of a) -> m1 n = m n) /\
  (forall a n, In a as_ -> tgt truth gn a = Some n -> is_in a = false -> m3 n = Arr (sch v (a_lname a))) /\
  (forall n, (forall a, In a as_ -> tgt truth gn a = Some n -> is_in a = true) -> (forall a, In a as_ -> a_opt a = true -> n <> ptr_of a) -> m3 n = m1 n) /\
  (forall a, In a as_ -> wfwd a = true ->
     m' (gn a) = Arr (section_assign iv (snd (secs hi a)) (fst (secs hi a)) (ftmpl a) (contents m3 (gn a)) (contents m3 (local_of a)))) /\
  (forall n, (forall a, In a as_ -> wfwd a = true -> n <> gn a) -> m' n = m3 n).
Proof.
  destruct (run_ready truth iv sch g gn hi as_ m R) as (m1 & m3 & m2 & E & H1 & H2 & H3 & H4 & H5 & H6).
  pose proof (code_ok truth g gn hi as_ m R) as Ec. rewrite C in Ec. injection Ec as ->.
  rewrite X in E. injection E as -> ->. exists m1, m3. auto 10.
Qed.
End P.

Theorem C130_called_once :
  forall truth iv sch g gn hi_name as_ m, ready truth g gn hi_name as_ m ->
  exists code m' v, scheme_code g as_ = Ok code /\ run_scheme truth iv sch code 0 m = Some (m', [v]) /\
                    map fst v = map a_lname as_.
Proof.
  intros truth iv sch g gn hi as_ m R. destruct (run_ready truth iv sch g gn hi as_ m R) as (m1 & m3 & m2 & E & _). cbv zeta in E.
  eexists _, m2, _. split; [apply (code_ok truth g gn hi as_ m R)|]. split; [exact E|].
  rewrite map_map. reflexivity.
Qed.
Print Assumptions C130_called_once.

(* A transformed argument that is read by the scheme: what the scheme finds in level i is the
   host's value of the same level, converted to the scheme's units. *)
Theorem C130_received :
  forall truth iv sch g gn hi_name as_ m m' code v a host,
  ready truth g gn hi_name as_ m -> scheme_code g as_ = Ok code ->
  run_scheme truth iv sch code 0 m = Some (m', [v]) ->
  In a as_ -> transformed a -> a_intent a <> Out_ -> content m (gn a) host ->
  exists c, In (a_lname a, Present c) v /\
    forall i, in_range (range_of iv hi_name a) i ->
      c i = to_scheme a (host (same_level (range_of iv hi_name a) (opposite a) i)).
Proof.
  intros truth iv sch g gn hi as_ m m' code v a host R C X Ia T NO H.
  destruct (the_run truth iv sch g gn hi as_ m m' code v R C X) as (m1 & m3 & Ev & H1 & _).
  apply transformed_iff in T.
  assert (O : is_out a = false) by (unfold is_out; destruct (a_intent a); [reflexivity|contradiction|reflexivity]).
  assert (W : wrev a = true) by (unfold wrev; now rewrite T, O).
  exists (m1_local iv gn hi m a). split.
  - rewrite Ev. apply in_map_iff. exists a. split; [|exact Ia]. f_equal. unfold seen_of, tgt. rewrite W, O.
    f_equal. unfold contents. now rewrite (H1 a Ia W).
  - intros i Hi. unfold m1_local. rewrite assign_in by exact Hi. rewrite conv_to_scheme. unfold contents. unfold content in H. now rewrite H.
Qed.
Print Assumptions C130_received.

(* An argument that needs no transform and is not optional: the scheme works on the group's variable itself. *)
Theorem C130_plain :
  forall truth iv sch g gn hi_name as_ m m' code v a host,
  ready truth g gn hi_name as_ m -> scheme_code g as_ = Ok code ->
  run_scheme truth iv sch code 0 m = Some (m', [v]) ->
  In a as_ -> ~ transformed a -> a_opt a = false -> content m (gn a) host ->
  (a_intent a <> Out_ -> In (a_lname a, Present host) v) /\
  (a_intent a <> In_ -> content m' (gn a) (sch v (a_lname a))).
Proof.
  intros truth iv sch g gn hi as_ m m' code v a host R C X Ia T Oa H.
  destruct (the_run truth iv sch g gn hi as_ m m' code v R C X) as (m1 & m3 & Ev & H1 & H2 & H3 & H4 & H5 & H6).
  rewrite transformed_iff in T. assert (F : has_transform a = false) by (destruct (has_transform a); [contradiction T; reflexivity|reflexivity]).
  assert (Tg : tgt truth gn a = Some (gn a)) by (unfold tgt, wrev; now rewrite F, Oa).
  split.
  - intros NO. rewrite Ev. apply in_map_iff. exists a. split; [|exact Ia]. f_equal. unfold seen_of. rewrite Tg.
    unfold is_out. destruct (a_intent a); try contradiction; cbn; f_equal; unfold contents;
      rewrite H2; try (unfold content in H; now rewrite H); intros b Ib Wb; apply (gn_local truth g gn hi as_ m R); auto;
      unfold wrev in Wb; now apply andb_true_iff in Wb.
  - intros NI. unfold content. rewrite H6.
    + apply H3 with (a := a); auto. unfold is_in. destruct (a_intent a); [contradiction|reflexivity|reflexivity].
    + intros b Ib Wb E. apply (gn_inj truth g gn hi as_ m R) in E; auto. subst b. unfold wfwd in Wb. rewrite F in Wb. discriminate.
Qed.
Print Assumptions C130_plain.

(* ---- C131 ---- *)
(* A transformed inout argument: after the call the host's variable holds, in each level, the
   scheme's final value of that level converted to the host's units. *)
Theorem C131_returned :
  forall truth iv sch g gn hi_name as_ m m' code v a,
  ready truth g gn hi_name as_ m -> scheme_code g as_ = Ok code ->
  run_scheme truth iv sch code 0 m = Some (m', [v]) ->
  In a as_ -> transformed a -> a_intent a = InOut_ ->
  exists host', content m' (gn a) host' /\
    forall i, in_range (range_of iv hi_name a) i ->
      host' (same_level (range_of iv hi_name a) (opposite a) i) = to_host a (sch v (a_lname a) i).
Proof.
  intros truth iv sch g gn hi as_ m m' code v a R C X Ia T IO.
  destruct (the_run truth iv sch g gn hi as_ m m' code v R C X) as (m1 & m3 & Ev & H1 & H2 & H3 & H4 & H5 & H6).
  apply transformed_iff in T.
  assert (W : wrev a = true) by (unfold wrev, is_out; now rewrite T, IO).
  assert (F : wfwd a = true) by (unfold wfwd, is_in; now rewrite T, IO).
  eexists. split; [exact (H5 a Ia F)|]. intros i Hi. rewrite assign_out by exact Hi. rewrite conv_to_host. f_equal.
  unfold contents. rewrite (H3 a (local_of a) Ia); [reflexivity| |unfold is_in; now rewrite IO].
  unfold tgt. now rewrite W.
Qed.
Print Assumptions C131_returned.

(* An intent(in) argument, whatever the scheme does with its copy: the host's variable is the same. *)
Theorem C131_in_unchanged :
  forall truth iv sch g gn hi_name as_ m m' code v a,
  ready truth g gn hi_name as_ m -> scheme_code g as_ = Ok code ->
  run_scheme truth iv sch code 0 m = Some (m', [v]) ->
  In a as_ -> a_intent a = In_ -> m' (gn a) = m (gn a).
Proof.
  intros truth iv sch g gn hi as_ m m' code v a R C X Ia II.
  destruct (the_run truth iv sch g gn hi as_ m m' code v R C X) as (m1 & m3 & Ev & H1 & H2 & H3 & H4 & H5 & H6).
  rewrite H6.
  - rewrite H4.
    + apply H2. intros b Ib Wb. apply (gn_local truth g gn hi as_ m R); auto. unfold wrev in Wb. now apply andb_true_iff in Wb.
    + intros b Ib Tb. destruct (tgt_cases truth gn as_ b _ Ib Tb) as [E|(Th & E)].
      * apply (gn_inj truth g gn hi as_ m R) in E; auto. subst b. unfold is_in. now rewrite II.
      * exfalso. now apply (gn_local truth g gn hi as_ m R a b).
    + intros b Ib Ob. now apply (gn_ptr truth g gn hi as_ m R).
  - intros b Ib Wb E. apply (gn_inj truth g gn hi as_ m R) in E; auto. subst b.
    unfold wfwd, is_in in Wb. rewrite II, andb_false_r in Wb. discriminate.
Qed.
Print Assumptions C131_in_unchanged.

(* Nothing else is touched: a name that is neither a variable of the call, nor one of the
   copies, nor one of the pointers. *)
Theorem C131_frame :
  forall truth iv sch g gn hi_name as_ m m' code v n,
  ready truth g gn hi_name as_ m -> scheme_code g as_ = Ok code ->
  run_scheme truth iv sch code 0 m = Some (m', [v]) ->
  (forall a, In a as_ -> n <> gn a /\ n <> a_lname a ++ L "_local" /\ n <> a_lname a ++ L "_ptr") ->
  m' n = m n.
Proof.
  intros truth iv sch g gn hi as_ m m' code v n R C X H.
  destruct (the_run truth iv sch g gn hi as_ m m' code v R C X) as (m1 & m3 & Ev & H1 & H2 & H3 & H4 & H5 & H6).
  rewrite H6 by (intros b Ib _; apply (H b Ib)). rewrite H4.
  - apply H2. intros b Ib _. apply (H b Ib).
  - intros b Ib Tb. exfalso. destruct (tgt_cases truth gn as_ b _ Ib Tb) as [E|(Th & E)]; now apply (H b Ib) in E.
  - intros b Ib _. apply (H b Ib).
Qed.
Print Assumptions C131_frame.

(* A scheme that leaves an inout argument as it found it leaves the host's variable as it was,
   although the argument went through the conversion twice (exact arithmetic). *)
Theorem C131_round_trip :
  forall truth iv sch g gn hi_name as_ m m' code v a h u1 u2 f r host,
  ready truth g gn hi_name as_ m -> scheme_code g as_ = Ok code ->
  run_scheme truth iv sch code 0 m = Some (m', [v]) ->
  In a as_ -> a_host a = Some h -> a_intent a = InOut_ -> content m (gn a) host ->
  get_unit_convstrs u1 u2 = Ok (f, r) -> h_unit h = Some (f, r) ->
  (forall c, In (a_lname a, Present c) v -> sch v (a_lname a) = c) ->
  exists host', content m' (gn a) host' /\
    forall i x, in_range (range_of iv hi_name a) i ->
      host (same_level (range_of iv hi_name a) (opposite a) i) = Some x ->
      exists y, host' (same_level (range_of iv hi_name a) (opposite a) i) = Some y /\ (y == x)%Q.
Proof.
  intros truth iv sch g gn hi as_ m m' code v a h u1 u2 f r host R C X Ia Eh IO H U Eu Same.
  assert (T : transformed a) by (exists h; split; [exact Eh|left; rewrite Eu; discriminate]).
  destruct (C130_received truth iv sch g gn hi as_ m m' code v a host R C X Ia T ltac:(rewrite IO; discriminate) H) as (c & Ic & Hc).
  destruct (C131_returned truth iv sch g gn hi as_ m m' code v a R C X Ia T IO) as (host' & E' & Hh).
  exists host'. split; [exact E'|]. intros i x Hi Hx. rewrite (Hh i Hi), (Same c Ic), (Hc i Hi), Hx.
  unfold to_host, to_scheme. rewrite Eh, Eu.
  destruct (C16_round_trip _ _ _ _ U) as (_ & Q & _). destruct (Q x) as (y & z & E1 & E2 & Q3).
  rewrite E1, E2. eauto.
Qed.
Print Assumptions C131_round_trip.

(* ---- C132 ---- *)
(* An optional, active, transformed intent(out) argument is returned as an inout one is. *)
Theorem C132_optional_out :
  forall truth iv sch g gn hi_name as_ m m' code v a,
  ready truth g gn hi_name as_ m -> scheme_code g as_ = Ok code ->
  run_scheme truth iv sch code 0 m = Some (m', [v]) ->
  In a as_ -> transformed a -> a_intent a = Out_ -> a_opt a = true ->
  exists host', content m' (gn a) host' /\
    forall i, in_range (range_of iv hi_name a) i ->
      host' (same_level (range_of iv hi_name a) (opposite a) i) = to_host a (sch v (a_lname a) i).
Proof.
  intros truth iv sch g gn hi as_ m m' code v a R C X Ia T IO Oa.
  destruct (the_run truth iv sch g gn hi as_ m m' code v R C X) as (m1 & m3 & Ev & H1 & H2 & H3 & H4 & H5 & H6).
  assert (On : on truth a = true) by (apply on_active; now apply (r_inactive _ _ _ _ _ _ R)).
  apply transformed_iff in T.
  assert (F : wfwd a = true) by (unfold wfwd, is_in; now rewrite T, IO).
  eexists. split; [exact (H5 a Ia F)|]. intros i Hi. rewrite assign_out by exact Hi. rewrite conv_to_host. f_equal.
  unfold contents. rewrite (H3 a (local_of a) Ia); [reflexivity| |unfold is_in; now rewrite IO].
  unfold tgt, wrev, is_out. now rewrite T, IO, Oa, On.
Qed.
Print Assumptions C132_optional_out.

(* A transformed intent(out) argument that is not optional: whatever the scheme computes, the host's
   variable ends with the conversion of what the copy happened to hold before; with a fresh copy
   no level of it is defined. *)
Theorem C132_out_refuted :
  forall truth iv sch g gn hi_name as_ m m' code v a copy,
  ready truth g gn hi_name as_ m -> scheme_code g as_ = Ok code ->
  run_scheme truth iv sch code 0 m = Some (m', [v]) ->
  In a as_ -> transformed a -> a_intent a = Out_ -> a_opt a = false ->
  content m (a_lname a ++ L "_local") copy ->
  exists host', content m' (gn a) host' /\
    (forall i, in_range (range_of iv hi_name a) i ->
      host' (same_level (range_of iv hi_name a) (opposite a) i) = to_host a (copy i)) /\
    ((forall i, copy i = None) -> forall i, in_range (range_of iv hi_name a) i ->
      host' (same_level (range_of iv hi_name a) (opposite a) i) = None).
Proof.
  intros truth iv sch g gn hi as_ m m' code v a copy R C X Ia T IO Oa Hc.
  destruct (the_run truth iv sch g gn hi as_ m m' code v R C X) as (m1 & m3 & Ev & H1 & H2 & H3 & H4 & H5 & H6).
  apply transformed_iff in T.
  assert (F : wfwd a = true) by (unfold wfwd, is_in; now rewrite T, IO).
  assert (Lo : m3 (local_of a) = Arr copy).
  { rewrite H4.
    - rewrite H2; [exact Hc|]. intros b Ib Wb E. apply local_inj in E. apply (ln_inj truth g gn hi as_ m R) in E; auto. subst b.
      unfold wrev, is_out in Wb. rewrite IO, andb_false_r in Wb. discriminate.
    - intros b Ib Tb. exfalso. destruct (tgt_cases truth gn as_ b _ Ib Tb) as [E|(Th & E)].
      + symmetry in E. now apply (gn_local truth g gn hi as_ m R b a) in E.
      + apply local_inj in E. apply (ln_inj truth g gn hi as_ m R) in E; auto. subst b.
        unfold tgt, wrev, is_out in Tb. rewrite T, IO, Oa in Tb. cbn in Tb. injection Tb as Tb.
        now apply (gn_local truth g gn hi as_ m R a a).
    - intros b Ib Ob. apply local_ptr. }
  eexists. split; [exact (H5 a Ia F)|].
  assert (K : forall i, in_range (range_of iv hi a) i ->
    section_assign iv (snd (secs hi a)) (fst (secs hi a)) (ftmpl a) (contents m3 (gn a)) (contents m3 (local_of a))
      (same_level (range_of iv hi a) (opposite a) i) = to_host a (copy i)).
  { intros i Hi. rewrite assign_out by exact Hi. rewrite conv_to_host. unfold contents at 1. now rewrite Lo. }
  split; [exact K|]. intros N i Hi. rewrite K by exact Hi. rewrite N. unfold to_host. destruct (a_host a) as [h|]; [|reflexivity].
  destruct (h_unit h) as [(?, ?)|]; reflexivity.
Qed.
Print Assumptions C132_out_refuted.

(* ---- C133 ---- *)
(* An optional argument the host has switched off, or does not have at all: absent in the scheme. *)
Theorem C133_absent :
  forall truth iv sch g gn hi_name as_ m m' code v a,
  ready truth g gn hi_name as_ m -> scheme_code g as_ = Ok code ->
  run_scheme truth iv sch code 0 m = Some (m', [v]) ->
  In a as_ -> a_opt a = true -> ~ active truth a ->
  In (a_lname a, Absent) v /\ m' (gn a) = m (gn a).
Proof.
  intros truth iv sch g gn hi as_ m m' code v a R C X Ia Oa NA.
  destruct (the_run truth iv sch g gn hi as_ m m' code v R C X) as (m1 & m3 & Ev & H1 & H2 & H3 & H4 & H5 & H6).
  assert (F : has_transform a = false).
  { destruct (has_transform a) eqn:T; [|reflexivity]. exfalso. apply NA. apply (r_inactive _ _ _ _ _ _ R); auto. now apply transformed_iff. }
  assert (On : on truth a = false) by (destruct (on truth a) eqn:On; [exfalso; apply NA; now apply on_active|reflexivity]).
  assert (Tg : tgt truth gn a = None) by (unfold tgt, wrev; now rewrite F, Oa, On).
  split.
  - rewrite Ev. apply in_map_iff. exists a. split; [|exact Ia]. unfold seen_of. now rewrite Tg.
  - rewrite H6.
    + rewrite H4.
      * apply H2. intros b Ib Wb. apply (gn_local truth g gn hi as_ m R); auto. unfold wrev in Wb. now apply andb_true_iff in Wb.
      * intros b Ib Tb. exfalso. destruct (tgt_cases truth gn as_ b _ Ib Tb) as [E|(Th & E)].
        -- apply (gn_inj truth g gn hi as_ m R) in E; auto. subst b. congruence.
        -- now apply (gn_local truth g gn hi as_ m R a b).
      * intros b Ib Ob. now apply (gn_ptr truth g gn hi as_ m R).
    + intros b Ib Wb E. apply (gn_inj truth g gn hi as_ m R) in E; auto. subst b. unfold wfwd in Wb. rewrite F in Wb. discriminate.
Qed.
Print Assumptions C133_absent.

(* An active optional argument without transform is the host's variable. *)
Theorem C133_present :
  forall truth iv sch g gn hi_name as_ m m' code v a host,
  ready truth g gn hi_name as_ m -> scheme_code g as_ = Ok code ->
  run_scheme truth iv sch code 0 m = Some (m', [v]) ->
  In a as_ -> a_opt a = true -> active truth a -> ~ transformed a -> content m (gn a) host ->
  (a_intent a <> Out_ -> In (a_lname a, Present host) v) /\
  (a_intent a <> In_ -> content m' (gn a) (sch v (a_lname a))).
Proof.
  intros truth iv sch g gn hi as_ m m' code v a host R C X Ia Oa A T H.
  destruct (the_run truth iv sch g gn hi as_ m m' code v R C X) as (m1 & m3 & Ev & H1 & H2 & H3 & H4 & H5 & H6).
  rewrite transformed_iff in T. assert (F : has_transform a = false) by (destruct (has_transform a); [contradiction T; reflexivity|reflexivity]).
  apply on_active in A.
  assert (Tg : tgt truth gn a = Some (gn a)) by (unfold tgt, wrev; now rewrite F, Oa, A).
  split.
  - intros NO. rewrite Ev. apply in_map_iff. exists a. split; [|exact Ia]. f_equal. unfold seen_of. rewrite Tg.
    unfold is_out. destruct (a_intent a); try contradiction; cbn; f_equal; unfold contents;
      rewrite H2; try (unfold content in H; now rewrite H); intros b Ib Wb; apply (gn_local truth g gn hi as_ m R); auto;
      unfold wrev in Wb; now apply andb_true_iff in Wb.
  - intros NI. unfold content. rewrite H6.
    + apply H3 with (a := a); auto. unfold is_in. destruct (a_intent a); [contradiction|reflexivity|reflexivity].
    + intros b Ib Wb E. apply (gn_inj truth g gn hi as_ m R) in E; auto. subst b. unfold wfwd in Wb. rewrite F in Wb. discriminate.
Qed.
Print Assumptions C133_present.

(* ---- what goes wrong outside these conditions ---- *)
Lemma gather_in f l r a x : gather f l = Ok r -> In a l -> f a = Ok x -> forall t, In t x -> In t r.
Proof.
  revert r. induction l as [|b l IH]; cbn; intros r H I E t It; [contradiction|].
  destruct (f b) as [y|] eqn:Eb; [|discriminate]. cbn in H. destruct (gather f l) as [z|] eqn:Ez; [|discriminate].
  injection H as <-. apply in_or_app. destruct I as [->|I].
  - left. rewrite E in Eb. injection Eb as <-. exact It.
  - right. eapply IH; eauto.
Qed.
Lemma gather_each f l r a : gather f l = Ok r -> In a l -> exists x, f a = Ok x.
Proof.
  revert r. induction l as [|b l IH]; cbn; intros r H I; [contradiction|].
  destruct (f b) as [y|] eqn:Eb; [|discriminate]. cbn in H. destruct (gather f l) as [z|] eqn:Ez; [|discriminate].
  destruct I as [->|I]; eauto.
Qed.
Lemma emit_each {A} (f : A -> res stmt) l r a : emit f l = Ok r -> In a l -> exists x, f a = Ok x /\ In x r.
Proof.
  revert r. induction l as [|b l IH]; cbn; intros r H I; [contradiction|].
  destruct (f b) as [y|] eqn:Eb; [|discriminate]. cbn in H. destruct (emit f l) as [z|] eqn:Ez; [|discriminate].
  injection H as <-. destruct I as [->|I].
  - exists y. split; [exact Eb|now left].
  - destruct (IH z eq_refl I) as (x & Ex & Ix). exists x. split; [exact Ex|now right].
Qed.
Lemma emit_form {A} (f : A -> res stmt) (P : stmt -> Prop) l r :
  (forall a x, f a = Ok x -> P x) -> emit f l = Ok r -> forall x, In x r -> P x.
Proof.
  intros H. revert r. induction l as [|b l IH]; cbn; intros r E x I.
  - injection E as <-. contradiction.
  - destruct (f b) as [y|] eqn:Eb; [|discriminate]. cbn in E. destruct (emit f l) as [z|] eqn:Ez; [|discriminate].
    injection E as <-. destruct I as [<-|I]; eauto.
Qed.
Lemma code_inv g as_ code : scheme_code g as_ = Ok code -> exists rev fwd acts pre post,
  gather (reverse_of g) as_ = Ok rev /\ gather (forward_of g) as_ = Ok fwd /\ actuals g rev as_ = Ok acts /\
  emit (write_reverse g) rev = Ok pre /\ emit (write_forward g) fwd = Ok post /\
  code = pre ++ flat_map associate as_ ++ [SCall acts] ++ flat_map copy_back as_ ++ post.
Proof.
  unfold scheme_code. intros H.
  destruct (gather (reverse_of g) as_) as [rev|] eqn:E1; [|discriminate]. cbn in H.
  destruct (gather (forward_of g) as_) as [fwd|] eqn:E2; [|discriminate]. cbn in H.
  destruct (actuals g rev as_) as [acts|] eqn:E3; [|discriminate]. cbn in H.
  destruct (emit (write_reverse g) rev) as [pre|] eqn:E4; [|discriminate]. cbn in H.
  destruct (emit (write_forward g) fwd) as [post|] eqn:E5; [|discriminate]. cbn in H.
  injection H as <-. exists rev, fwd, acts, pre, post. auto 10.
Qed.
Lemma conv_stuck truth iv sch (l : list stmt) : forall m tr r,
  (forall x, In x l -> exists a b c d e, x = SConv a b c d e) ->
  (forall c, m r <> Arr c) -> (exists a b d e, In (SConv a b r d e) l) ->
  exec truth iv sch l (m, tr) = None.
Proof.
  induction l as [|s l IH]; intros m tr r F N (a & b & d & e & I); [contradiction|].
  cbn [exec]. destruct (F s (or_introl eq_refl)) as (a0 & b0 & c0 & d0 & e0 & ->). cbn.
  destruct (m a0) eqn:Ea; try reflexivity. destruct (m c0) eqn:Ec; try reflexivity.
  destruct I as [E|I].
  - injection E as -> -> -> -> ->. exfalso. now apply (N a2).
  - apply (IH _ _ r); [intros; apply F; now right| |eauto].
    intros c. unfold mset. destruct (str_eqb r a0) eqn:E; [apply str_eqb_eq in E; subst; exfalso; now apply (N a1)|apply N].
Qed.

(* A transformed optional argument that the scheme reads and that the host has switched off
   (its variable is not allocated): the code reads the unallocated variable. *)
Theorem C133_inactive_transform_refuted :
  forall truth iv sch g as_ m code a e,
  scheme_code g as_ = Ok code -> In a as_ -> transformed a -> a_opt a = true -> a_intent a <> Out_ ->
  In (a_std a, e) (calls g) -> NoDup (map fst (calls g)) ->
  m (g_name e) = Unalloc ->
  run_scheme truth iv sch code 0 m = None.
Proof.
  intros truth iv sch g as_ m code a e C Ia T _ NO Ie N U.
  destruct (code_inv _ _ _ C) as (rev & fwd & acts & pre & post & E1 & E2 & E3 & E4 & E5 & ->).
  unfold run_scheme. change ((0 =? 0)%Z) with true. cbv iota. apply exec_fail.
  apply (conv_stuck truth iv sch pre m [] (g_name e)).
  - intros x Ix. revert x Ix. apply (emit_form (write_reverse g) (fun x => exists a b c d e, x = SConv a b c d e) rev pre); [|exact E4].
    intros t x Hx. unfold write_reverse in Hx. destruct (find (calls g) (t_std t)); [injection Hx as <-; eauto 10|discriminate].
  - intros c. rewrite U. discriminate.
  - destruct (gather_each _ _ _ _ E1 Ia) as (x & Ex). apply transformed_iff in T.
    assert (Ix : exists t, In t x /\ t_std t = a_std a).
    { unfold reverse_of in Ex. destruct (transformed_host a T) as (h & Eh). rewrite Eh, T in Ex.
      destruct (sections g a h) as [sc|]; [|discriminate]. cbn in Ex. injection Ex as <-.
      destruct (a_intent a); try contradiction; cbn; eexists; split; [left; reflexivity|reflexivity|left; reflexivity|reflexivity]. }
    destruct Ix as (t & It & Et). pose proof (gather_in _ _ _ _ _ E1 Ia Ex t It) as Ir.
    destruct (emit_each _ _ _ _ E4 Ir) as (s & Es & Is). unfold write_reverse in Es. rewrite Et in Es.
    rewrite (find_in _ _ _ N Ie) in Es. injection Es as <-. eauto 10.
Qed.
Print Assumptions C133_inactive_transform_refuted.

(* ... and if the host's variable is allocated although it is switched off, the scheme is told that
   the argument is present. *)
Theorem C133_inactive_present_refuted :
  forall truth iv sch g a h n o host copy,
  a_host a = Some h -> transformed a -> a_opt a = true -> a_intent a = In_ -> a_vert a = None -> truth (h_cond h) = false ->
  own g = [] -> calls g = [(a_std a, mkGE n o)] -> n <> a_lname a ++ L "_local" ->
  forall m, content m n host -> content m (a_lname a ++ L "_local") copy -> m (a_lname a ++ L "_ptr") = PNull ->
  exists code m' c, scheme_code g [a] = Ok code /\
    run_scheme truth iv sch code 0 m = Some (m', [[(a_lname a, Present c)]]) /\
    forall i, c i = to_scheme a (host i).
Proof.
  intros truth iv sch g a h n o host copy Eh T Oa IO V Tr Ow Ca Nn m Hh Hc Hp.
  apply transformed_iff in T.
  assert (Sc : sections g a h = Ok (SAll, SAll)) by (unfold sections; now rewrite V).
  eexists _, _, (fun i => convert (rtmpl a) (host i)). split; [|split].
  - unfold scheme_code. cbn [gather]. unfold reverse_of, forward_of. rewrite Eh, T, Sc. cbn [bind fst snd]. rewrite IO. cbn [intent_eqb negb app bind].
    cbn [actuals]. unfold actual, lookup. rewrite Ow, Ca. cbn [find]. rewrite str_eqb_refl. cbn [bind].
    unfold subst_name. cbn [fold_left t_std t_local]. rewrite str_eqb_refl.
    cbn [emit]. unfold write_reverse. rewrite Ca. cbn [find t_std]. rewrite str_eqb_refl. cbn [bind g_name t_local t_lsec t_vsec t_tmpl].
    cbn [flat_map]. unfold associate, copy_back. rewrite Oa, Eh, T, IO. cbn [intent_eqb negb app]. reflexivity.
  - unfold run_scheme. change ((0 =? 0)%Z) with true. cbv iota. cbn [exec exec1].
    unfold content in *. fold (local_of a) in *. rewrite Hc, Hh. cbn [exec exec1]. rewrite Tr. cbn [exec exec1 resolve].
    unfold target. rewrite mset_same. cbn [map sees intent_eqb fold_left give_back].
    unfold contents. rewrite mset_same. cbn [app]. unfold rtmpl. rewrite Eh. reflexivity.
  - intros i. apply conv_to_scheme.
Qed.
Print Assumptions C133_inactive_present_refuted.

(* ---- C134 ---- *)
(* A variable another scheme of the group produces (it is in the group's own dictionary, not in
   its call list): if the units, kind or orientation differ, no code is written at all. *)
Theorem C134_group_variable_refuted :
  forall g as_ a, In a as_ -> transformed a -> ~ In (a_std a) (map fst (calls g)) ->
  forall code, scheme_code g as_ <> Ok code.
Proof.
  intros g as_ a Ia T N code C.
  destruct (code_inv _ _ _ C) as (rev & fwd & acts & pre & post & E1 & E2 & E3 & E4 & E5 & _).
  apply transformed_iff in T. destruct (transformed_host a T) as (h & Eh).
  pose proof (find_none _ _ N) as Fn.
  destruct (a_intent a) eqn:IO.
  - destruct (gather_each _ _ _ _ E1 Ia) as (x & Ex).
    assert (Ix : exists t, In t x /\ t_std t = a_std a).
    { unfold reverse_of in Ex. rewrite Eh, T in Ex. destruct (sections g a h) as [sc|]; [|discriminate]. cbn in Ex. injection Ex as <-.
      rewrite IO. cbn. eexists; split; [left; reflexivity|reflexivity]. }
    destruct Ix as (t & It & Et). destruct (emit_each _ _ _ _ E4 (gather_in _ _ _ _ _ E1 Ia Ex t It)) as (s & Es & _).
    unfold write_reverse in Es. rewrite Et, Fn in Es. discriminate.
  - destruct (gather_each _ _ _ _ E2 Ia) as (x & Ex).
    assert (Ix : exists t, In t x /\ t_std t = a_std a).
    { unfold forward_of in Ex. rewrite Eh, T in Ex. destruct (sections g a h) as [sc|]; [|discriminate]. cbn in Ex. injection Ex as <-.
      rewrite IO. cbn. eexists; split; [left; reflexivity|reflexivity]. }
    destruct Ix as (t & It & Et). destruct (emit_each _ _ _ _ E5 (gather_in _ _ _ _ _ E2 Ia Ex t It)) as (s & Es & _).
    unfold write_forward in Es. rewrite Et, Fn in Es. discriminate.
  - destruct (gather_each _ _ _ _ E1 Ia) as (x & Ex).
    assert (Ix : exists t, In t x /\ t_std t = a_std a).
    { unfold reverse_of in Ex. rewrite Eh, T in Ex. destruct (sections g a h) as [sc|]; [|discriminate]. cbn in Ex. injection Ex as <-.
      rewrite IO. cbn. eexists; split; [left; reflexivity|reflexivity]. }
    destruct Ix as (t & It & Et). destruct (emit_each _ _ _ _ E4 (gather_in _ _ _ _ _ E1 Ia Ex t It)) as (s & Es & _).
    unfold write_reverse in Es. rewrite Et, Fn in Es. discriminate.
Qed.
Print Assumptions C134_group_variable_refuted.

(* the code for one optional argument without transform *)
Lemma optional_code g a h n :
  a_host a = Some h -> ~ transformed a -> a_opt a = true -> a_intent a = In_ ->
  own g = [] -> In (a_std a, mkGE n true) (calls g) -> NoDup (map fst (calls g)) ->
  scheme_code g [a] = Ok [SAssoc (h_cond h) (ptr_of a) (a_lname a); SCall [(a_lname a, In_, ptr_of a)]].
Proof.
  intros Eh T Oa IO Ow Ca N. rewrite transformed_iff in T.
  assert (F : has_transform a = false) by (destruct (has_transform a); [contradiction T; reflexivity|reflexivity]).
  unfold scheme_code. cbn [gather]. unfold reverse_of, forward_of. rewrite Eh, F. cbn [bind app].
  cbn [actuals]. unfold actual, lookup. rewrite Ow. cbn [find]. rewrite (find_in _ _ _ N Ca). cbn [bind].
  unfold subst_name. cbn [fold_left g_opt emit bind flat_map]. unfold associate, copy_back. rewrite Oa, Eh, F, IO. reflexivity.
Qed.

(* An optional argument whose variable has another name in the group (because a scheme before
   this one named it so): the scheme is given the variable of the group that happens to have the
   scheme's name for the argument. *)
Theorem C134_optional_name_refuted :
  forall truth iv sch g a h n other m,
  a_host a = Some h -> ~ transformed a -> a_opt a = true -> a_intent a = In_ -> truth (h_cond h) = true ->
  own g = [] -> In (a_std a, mkGE n true) (calls g) -> NoDup (map fst (calls g)) ->
  a_lname a <> n -> content m (a_lname a) other -> m (a_lname a ++ L "_ptr") = PNull ->
  exists code m', scheme_code g [a] = Ok code /\
    run_scheme truth iv sch code 0 m = Some (m', [[(a_lname a, Present other)]]).
Proof.
  intros truth iv sch g a h n other m Eh T Oa IO Tr Ow Ca N _ Ho Hp.
  eexists _, _. split; [now apply (optional_code g a h n)|].
  unfold run_scheme. change ((0 =? 0)%Z) with true. cbv iota. cbn [exec exec1]. rewrite Tr.
  unfold content in Ho. fold (ptr_of a) in Hp. rewrite Hp, Ho. cbn [exec exec1 resolve]. unfold target. rewrite mset_same.
  assert (NP : a_lname a <> ptr_of a) by (intros E; rewrite <- E in Hp; congruence).
  rewrite !mset_other by exact NP. rewrite Ho. cbn [map sees intent_eqb fold_left give_back app].
  unfold contents. rewrite mset_other by exact NP. rewrite Ho. reflexivity.
Qed.
Print Assumptions C134_optional_name_refuted.

(* ---- C135 ---- *)
(* Two schemes of a group that use the same name for optional arguments of different variables: the
   pointer set for the first is still set at the call of the second, so an argument the host has
   switched off is present there, with the other variable's values. *)
Theorem C135_stale_pointer_refuted :
  forall truth iv sch g a ha na b hb nb val m,
  a_host a = Some ha -> ~ transformed a -> a_opt a = true -> a_intent a = In_ -> truth (h_cond ha) = true ->
  a_host b = Some hb -> ~ transformed b -> a_opt b = true -> a_intent b = In_ -> truth (h_cond hb) = false ->
  a_lname b = a_lname a -> a_std a <> a_std b ->
  own g = [] -> In (a_std a, mkGE na true) (calls g) -> In (a_std b, mkGE nb true) (calls g) -> NoDup (map fst (calls g)) ->
  content m (a_lname a) val -> m (a_lname a ++ L "_ptr") = PNull ->
  exists c1 c2 m', scheme_code g [a] = Ok c1 /\ scheme_code g [b] = Ok c2 /\
    run_group truth iv sch [c1; c2] m [] = Some (m', [[(a_lname a, Present val)]; [(a_lname b, Present val)]]).
Proof.
  intros truth iv sch g a ha na b hb nb val m Ea Ta Oa Ia Tra Eb Tb Ob Ib Trb Lb _ Ow Ca Cb N Hv Hp.
  eexists _, _, _. split; [now apply (optional_code g a ha na)|]. split; [now apply (optional_code g b hb nb)|].
  unfold run_group. cbn [exec exec1]. rewrite Tra.
  unfold content in Hv. fold (ptr_of a) in Hp. rewrite Hp, Hv. cbn [exec exec1 resolve]. unfold target. rewrite mset_same.
  assert (NP : a_lname a <> ptr_of a) by (intros E; rewrite <- E in Hp; congruence).
  rewrite !mset_other by exact NP. rewrite Hv. cbn [map sees intent_eqb fold_left give_back app].
  assert (EP : ptr_of b = ptr_of a) by (unfold ptr_of; now rewrite Lb). cbn [exec exec1]. rewrite Trb. cbn [exec exec1 resolve]. unfold target. rewrite EP, mset_same.
  rewrite !mset_other by exact NP. rewrite Hv.
  cbn [map sees intent_eqb fold_left give_back app].
  unfold contents. rewrite !mset_other by exact NP. rewrite Hv. reflexivity.
Qed.
Print Assumptions C135_stale_pointer_refuted.

(* ---- a concrete call ---- *)
(* temperature: scheme in C with the top level first, host in K from the surface up; inout *)
Definition a_t := mkArg (L "air_temperature") (L "t") InOut_ false (Some (L "1", L "vertical_layer_dimension"))
  (Some (mkHV (L ".true.") (Some (L "{var}+273.15{kind}", L "{var}-273.15{kind}")) false true)).
(* an optional output in mm, the host in m *)
Definition a_r := mkArg (L "rain") (L "rain") Out_ true None
  (Some (mkHV (L "do_rain") (Some (L "1.0E-3{kind}*{var}", L "1.0E+3{kind}*{var}")) false false)).
(* an optional input that is switched off *)
Definition a_o := mkArg (L "ozone") (L "oz") In_ true None (Some (mkHV (L "do_ozone") None false false)).
(* a plain input *)
Definition a_n := mkArg (L "vertical_layer_dimension") (L "nlev") In_ false None (Some (mkHV (L ".true.") None false false)).
(* an output in mm that is not optional *)
Definition a_s := mkArg (L "snow") (L "sn") Out_ false None
  (Some (mkHV (L ".true.") (Some (L "1.0E-3{kind}*{var}", L "1.0E+3{kind}*{var}")) false false)).
(* an optional output nobody asks for *)
Definition a_d := mkArg (L "diag") (L "dg") Out_ true None None.
(* an active optional argument *)
Definition a_c := mkArg (L "cloud") (L "cld") InOut_ true None (Some (mkHV (L "do_rain") None false false)).
Definition al := [a_t; a_r; a_o; a_n; a_s; a_d; a_c].
Definition gname (a : arg) : str :=
  if str_eqb (a_std a) (L "air_temperature") then L "temp" else if str_eqb (a_std a) (L "rain") then L "rain_g" else a_lname a.
Definition hname (a : arg) : str := L "nlev".
Definition grp := mkGrp [(L "diag", mkGE (L "dg") true)]
  [(L "air_temperature", mkGE (L "temp") false); (L "rain", mkGE (L "rain_g") true); (L "ozone", mkGE (L "oz") true);
   (L "vertical_layer_dimension", mkGE (L "nlev") false); (L "snow", mkGE (L "sn") false); (L "cloud", mkGE (L "cld") true)] [].
Definition tr (c : str) : bool := negb (str_eqb c (L "do_ozone")).
Definition ival (n : str) : Z := if str_eqb n (L "nlev") then 3%Z else 1%Z.
Definition undef : arr := fun _ => None.
Definition temps : arr := fun i => if ((1 <=? i) && (i <=? 3))%Z then Some (inject_Z (300 - 10 * i)) else None.
Definition mem0 : store := fun n =>
  if str_eqb n (L "temp") then Arr temps
  else if existsb (str_eqb n) [L "rain_g"; L "nlev"; L "sn"; L "cld"; L "t_local"; L "rain_local"; L "sn_local"] then Arr undef
  else if str_eqb n (L "oz") then Unalloc
  else PNull.

Ltac each := let Ha := fresh in intros ? Ha; cbn in Ha;
  repeat match goal with H : _ \/ _ |- _ => destruct H end; try contradiction; subst.
Lemma is_ready : ready tr grp gname hname al mem0.
Proof.
  constructor.
  - repeat constructor; cbn; intuition discriminate.
  - repeat constructor; cbn; intuition discriminate.
  - repeat constructor; cbn; intuition discriminate.
  - repeat constructor; cbn; intuition discriminate.
  - each; cbn; intuition.
  - intros a lo e Ia. cbn in Ia. repeat destruct Ia as [<-|Ia]; try contradiction; cbn; intros E; try discriminate.
    injection E as <- <-. exists false. cbn. intuition.
  - intros a b Ia Ib _. cbn in Ia, Ib. repeat destruct Ia as [<-|Ia]; try contradiction;
      repeat destruct Ib as [<-|Ib]; try contradiction; cbn; discriminate.
  - intros a b Ia Ib _. cbn in Ia, Ib. repeat destruct Ia as [<-|Ia]; try contradiction;
      repeat destruct Ib as [<-|Ib]; try contradiction; cbn; discriminate.
  - intros a Ia Oa T. cbn in Ia. repeat destruct Ia as [<-|Ia]; try contradiction; try discriminate; try reflexivity.
    exfalso. apply T. eexists. split; [reflexivity|]. left. discriminate.
  - intros a Ia A. cbn in Ia. repeat destruct Ia as [<-|Ia]; try contradiction; try (eexists; reflexivity);
      exfalso; destruct A as [A|(h & E & A)]; try discriminate. injection E as <-. discriminate.
  - intros a Ia T. cbn in Ia. repeat destruct Ia as [<-|Ia]; try contradiction; try (eexists; reflexivity);
      exfalso; apply transformed_iff in T; discriminate.
  - intros a Ia Oa. cbn in Ia. repeat destruct Ia as [<-|Ia]; try contradiction; try discriminate; reflexivity.
  - intros a Ia T Oa. cbn in Ia. repeat destruct Ia as [<-|Ia]; try contradiction; try discriminate;
      try (apply transformed_iff in T; discriminate); eexists; split; reflexivity.
Qed.

(* a scheme that adds one degree to the level 1 of t, and gives 5 to its outputs *)
Definition demo : scheme := fun v d =>
  if str_eqb d (L "t") then
    match v with (_, Present c) :: _ => fun i => if (i =? 1)%Z then option_map (fun x => (x + 1)%Q) (c i) else c i | _ => undef end
  else fun _ => Some 5%Q.
Definition result := match scheme_code grp al with
  | Ok code => match run_scheme tr ival demo code 0 mem0 with Some (m', [v]) => Some (m', v) | _ => None end
  | _ => None end.

(* the conditions of C130 to C133 hold in this call *)
Example C130_example : exists code m' v, scheme_code grp al = Ok code /\ run_scheme tr ival demo code 0 mem0 = Some (m', [v]) /\
  transformed a_t /\ a_intent a_t = InOut_ /\ content mem0 (gname a_t) temps /\ in_range (range_of ival hname a_t) 1 /\
  same_level (range_of ival hname a_t) (opposite a_t) 1 = 3%Z /\
  ~ transformed a_n /\ a_opt a_n = false /\ (exists u1 u2, get_unit_convstrs u1 u2 = Ok (L "{var}+273.15{kind}", L "{var}-273.15{kind}")).
Proof.
  destruct (C130_called_once tr ival demo grp gname hname al mem0 is_ready) as (c & m' & v & E1 & E2 & _).
  exists c, m', v. split; [exact E1|]. split; [exact E2|]. split; [apply transformed_iff; reflexivity|].
  split; [reflexivity|]. split; [reflexivity|]. split; [cbn; lia|]. split; [reflexivity|].
  split; [rewrite transformed_iff; discriminate|]. split; [reflexivity|].
  exists (L "C"), (L "K"). vm_compute. reflexivity.
Qed.
(* the scheme's level 1 is the host's level 3 (270 K = -3.15 C); one degree more comes back there;
   rain comes back in m; ozone and the unknown diagnostic are absent; snow is lost *)
Example C131_example : match result with
  | Some (m', v) =>
      match v with
      | [(_, Present t); (_, Present _); (_, Absent); _; _; (_, Absent); (_, Present _)] =>
          option_map Qred (t 1%Z) = Some (-63 # 20)%Q /\
          option_map Qred (contents m' (L "temp") 3%Z) = Some (271 # 1)%Q /\
          option_map Qred (contents m' (L "temp") 1%Z) = Some (290 # 1)%Q /\
          option_map Qred (contents m' (L "rain_g") 1%Z) = Some (1 # 200)%Q /\
          contents m' (L "sn") 1%Z = None /\
          contents m' (L "cld") 1%Z = Some 5%Q
      | _ => False
      end
  | None => False
  end.
Proof. vm_compute. repeat split. Qed.
Example C132_example : transformed a_s /\ a_intent a_s = Out_ /\ a_opt a_s = false /\ In a_s al /\
  content mem0 (a_lname a_s ++ L "_local") undef /\ (forall i, undef i = None) /\
  transformed a_r /\ a_opt a_r = true /\ active tr a_r.
Proof.
  split; [apply transformed_iff; reflexivity|]. do 2 (split; [reflexivity|]). split; [cbn; intuition|].
  do 2 (split; [reflexivity|]). split; [apply transformed_iff; reflexivity|]. split; [reflexivity|].
  eexists. split; reflexivity.
Qed.
Example C133_example : ~ active tr a_o /\ ~ active tr a_d /\ active tr a_c /\ ~ transformed a_c /\
  (* a transformed optional input that is switched off *)
  let b := mkArg (L "rain") (L "rain") In_ true None (a_host a_r) in
  transformed b /\ (exists code, scheme_code grp [b] = Ok code) /\ In (a_std b, mkGE (L "rain_g") true) (calls grp) /\
  NoDup (map fst (calls grp)).
Proof.
  split; [intros (h & E & T); injection E as <-; discriminate|]. split; [intros (h & E & T); discriminate|].
  split; [eexists; split; reflexivity|]. split; [rewrite transformed_iff; discriminate|]. cbv zeta.
  split; [apply transformed_iff; reflexivity|]. split; [eexists; reflexivity|]. split; [cbn; intuition|].
  repeat constructor; cbn; intuition discriminate.
Qed.
Example C134_example :
  (exists g a, transformed a /\ ~ In (a_std a) (map fst (calls g)) /\ In (a_std a) (map fst (own g))) /\
  (* two variables: the group calls the optional one q2 because q is already taken *)
  let a := mkArg (L "std2") (L "q") In_ true None (Some (mkHV (L ".true.") None false false)) in
  let g := mkGrp [] [(L "std1", mkGE (L "q") false); (L "std2", mkGE (L "q2") true)] [] in
  ~ transformed a /\ In (a_std a, mkGE (L "q2") true) (calls g) /\ NoDup (map fst (calls g)) /\ a_lname a <> L "q2".
Proof.
  split.
  - exists (mkGrp [(L "snow", mkGE (L "sn") false)] [] []), a_s. split; [apply transformed_iff; reflexivity|]. cbn. intuition.
  - cbv zeta. split; [rewrite transformed_iff; discriminate|]. split; [cbn; intuition|]. split; [|discriminate].
    repeat constructor; cbn; intuition discriminate.
Qed.
Example C135_example :
  let a := mkArg (L "std1") (L "q") In_ true None (Some (mkHV (L "on") None false false)) in
  let b := mkArg (L "std2") (L "q") In_ true None (Some (mkHV (L "do_ozone") None false false)) in
  let g := mkGrp [] [(L "std1", mkGE (L "q") true); (L "std2", mkGE (L "q_1") true)] [] in
  ~ transformed a /\ ~ transformed b /\ tr (L "on") = true /\ tr (L "do_ozone") = false /\ a_std a <> a_std b /\
  NoDup (map fst (calls g)).
Proof.
  cbv zeta. do 2 (split; [rewrite transformed_iff; discriminate|]). do 2 (split; [reflexivity|]). split; [discriminate|].
  repeat constructor; cbn; intuition discriminate.
Qed.
