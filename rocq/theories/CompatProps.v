(* CompatProps.v: theorems for C31 (the var_props part), C32, C33, C48, C49. *)
From Verif Require Import CompatModel CompatSpec CompatProofs.
Open Scope nat_scope.
Open Scope list_scope.

(* ---------------- C33: index translation ---------------- *)

(* A dimension transform holds two mutually inverse permutations that pair
   every dimension of one variable with the same dimension of the other. *)
Theorem C33_permutations_inverse :
  forall var1 var2 eqv t, get_dim_transforms var1 var2 = Ok (eqv, Some t) ->
    inverse_perms (length var1) (fperm t) (rperm t) /\ length var1 = length var2 /\
    (forall j i, nth_error (fperm t) j = Some i -> same_dim (nth i var1 []) (nth j var2 [])) /\
    is_horizontal (nth (fh t) var1 []) = true /\ is_horizontal (nth (rh t) var2 []) = true.
Proof.
  intros var1 var2 eqv t H. destruct (get_dim_transforms_spec _ _ _ _ H) as [A B C D E F].
  destruct (get_dim_transforms_hv _ _ _ _ H) as (G & _ & _).
  assert (K : forall j i, nth_error (fperm t) j = Some i -> same_dim (nth i var1 []) (nth j var2 []) /\
             (is_horizontal (nth i var1 []) = true -> is_horizontal (nth j var2 []) = true)).
  { intros j i Hj. specialize (C _ _ Hj). unfold regularize in C. rewrite !nth_error_map in C.
    assert (Hi : i < length var1) by (eapply inverse_in; [exact A|eapply nth_error_In; eauto]).
    assert (Hj' : j < length var2) by (rewrite <- B; destruct A as (<- & _); apply nth_error_Some; congruence).
    rewrite (nth_error_nth' var1 [] Hi), (nth_error_nth' var2 [] Hj') in C. injection C as C.
    split; [now apply reg_dim_same|]. intros Hh. apply reg_dim_horizontal. rewrite <- C. unfold reg_dim. now rewrite Hh. }
  repeat split; try apply A; auto.
  - intros j i Hj. now apply K.
  - now apply (K _ _ D).
Qed.
Print Assumptions C33_permutations_inverse.

(* Without horizontal adjustment and vertical mirroring the round trip is the
   identity for every permutation and every index list. *)
Theorem C33_round_trip :
  forall var1 var2 eqv t idx, get_dim_transforms var1 var2 = Ok (eqv, Some t) -> length idx = length var1 ->
  exists idx2, forward t None None idx = Some idx2 /\ length idx2 = length var2 /\ reverse t None None idx2 = Some idx.
Proof.
  intros var1 var2 eqv t idx H Hl. destruct (get_dim_transforms_spec _ _ _ _ H) as [A B C D E F].
  rewrite <- B. apply roundtrip; auto.
Qed.
Print Assumptions C33_round_trip.

(* With adjustment and mirroring the round trip is proved when the horizontal
   and vertical positions are the same in both variables.  Missing: transforms
   that move them, for which the claim is false (C33_round_trip_refuted). *)
Theorem C33_round_trip_adjusted_partial :
  forall var1 var2 eqv t adj flip idx,
  get_dim_transforms var1 var2 = Ok (eqv, Some t) -> length idx = length var1 ->
  fh t = rh t -> fv t = rv t -> (flip = None \/ fv t <> None) ->
  exists idx2, forward t adj flip idx = Some idx2 /\ length idx2 = length var2 /\ reverse t adj flip idx2 = Some idx.
Proof.
  intros var1 var2 eqv t adj flip idx H Hl Hh Hv Hf.
  destruct (get_dim_transforms_spec _ _ _ _ H) as [A B C D E F].
  destruct (get_dim_transforms_hv _ _ _ _ H) as (G1 & G2 & _).
  rewrite <- B. apply roundtrip; auto.
  - right. split; [exact Hh|]. now rewrite <- Hh at 1; rewrite E, Hh.
  - destruct Hf as [Hf|Hf]; [now left|right]. destruct (fv t) as [a|] eqn:Ea; [|congruence].
    rewrite <- Hv in *. destruct F as [F1 F2]. split; [reflexivity|]. split; [exact F2|].
    intros ->. destruct (G2 _ eq_refl) as [K _]. congruence.
Qed.
Print Assumptions C33_round_trip_adjusted_partial.

(* Under the same restriction the forward transform addresses the same element:
   only the horizontal index is shifted, only the vertical index mirrored. *)
Theorem C33_addresses_partial :
  forall var1 var2 eqv t adj flip idx,
  get_dim_transforms var1 var2 = Ok (eqv, Some t) -> length idx = length var1 ->
  fh t = rh t -> fv t = rv t -> (flip = None \/ fv t <> None) ->
  at_most_one is_horizontal var2 -> at_most_one is_vertical var2 ->
  Forall plain_vertical var1 -> Forall plain_vertical var2 ->
  exists idx2, forward t adj flip idx = Some idx2 /\ addresses t var2 adj flip idx idx2.
Proof.
  intros var1 var2 eqv t adj flip idx H Hl Hh Hv Hf Oh Ov P1 P2.
  destruct (C33_permutations_inverse _ _ _ _ H) as (Hp & HL & HD & Hh1 & Hh2).
  destruct (get_dim_transforms_spec _ _ _ _ H) as [A B C D E F].
  destruct (get_dim_transforms_hv _ _ _ _ H) as (G1 & G2 & G3).
  destruct (gather_total (fperm t) idx) as [l El].
  { intros i Hi. rewrite Hl. eapply inverse_in; eauto. }
  destruct (gather_spec _ _ _ El) as [Ll Nl].
  exists (let l1 := upd l (fh t) (adj_fun t adj true) in upd l1 (vpos (fv t) l1) (flip_fun flip)).
  rewrite forward_as_upd, El. split; [reflexivity|]. cbv zeta. split; [now rewrite !upd_length|].
  intros j i v Hj Hi. cbv zeta. rewrite !upd_nth, (Nl j i Hj), Hi.
  assert (Li : i < length var1) by (eapply inverse_in; [exact A|eapply nth_error_In; eauto]).
  assert (Lj : j < length var2) by (rewrite <- B; destruct A as (<- & _); apply nth_error_Some; congruence).
  assert (Lrh : rh t < length var2) by (rewrite <- B; destruct A as (<- & _); apply nth_error_Some; congruence).
  assert (RD : reg_dim (nth i var1 []) = reg_dim (nth j var2 [])).
  { specialize (C _ _ Hj). unfold regularize in C. rewrite !nth_error_map in C.
    rewrite (nth_error_nth' var1 [] Li), (nth_error_nth' var2 [] Lj) in C. now injection C. }
  assert (Pv : plain_vertical (nth i var1 []) /\ plain_vertical (nth j var2 [])).
  { rewrite Forall_forall in P1, P2. split; [apply P1|apply P2]; now apply nth_In. }
  destruct (is_horizontal (nth j var2 [])) eqn:Ehj.
  - assert (j = rh t) as -> by (apply Oh; auto). rewrite Hh, Nat.eqb_refl.
    assert (Nv : flip = None \/ (rh t =? vpos (fv t) (upd l (rh t) (adj_fun t adj true))) = false).
    { destruct Hf as [Hf|Hf]; [now left|right]. destruct (fv t) as [a|] eqn:Ea; [|congruence]. cbn [vpos].
      apply Nat.eqb_neq. intros <-. destruct (G2 _ eq_refl) as [K _].
      rewrite Hh in G1. congruence. }
    cbn [option_map].
    destruct Nv as [->| ->]; [|destruct adj; reflexivity].
    destruct (rh t =? _); destruct adj; reflexivity.
  - assert (Nh : j <> fh t) by (rewrite Hh; congruence). apply Nat.eqb_neq in Nh. rewrite Nh.
    assert (Ehi : is_horizontal (nth i var1 []) = false).
    { destruct (is_horizontal (nth i var1 [])) eqn:K; [|reflexivity].
      assert (K' : reg_dim (nth j var2 []) = hdim_temp) by (rewrite <- RD; unfold reg_dim; now rewrite K).
      apply reg_dim_horizontal in K'. congruence. }
    destruct (is_vertical (nth j var2 [])) eqn:Evj.
    + assert (Evi : is_vertical (nth i var1 []) = true).
      { apply same_vertical_lr with (a := nth j var2 []); auto; apply Pv. }
      destruct (fv t) as [a|] eqn:Ea.
      * cbn [vpos]. rewrite <- Hv in F. destruct F as [F1 F2].
        assert (La : a < length var2) by (rewrite <- B; destruct A as (<- & _); apply nth_error_Some; congruence).
        destruct (G2 _ eq_refl) as [Q1 Q2].
        assert (Qa : is_vertical (nth a var2 []) = true).
        { assert (La1 : a < length var1) by lia.
          assert (RDa : reg_dim (nth a var1 []) = reg_dim (nth a var2 [])).
          { specialize (C _ _ F1). unfold regularize in C. rewrite !nth_error_map in C.
            rewrite (nth_error_nth' var1 [] La1), (nth_error_nth' var2 [] La) in C. now injection C. }
          rewrite Forall_forall in P1, P2.
          apply same_vertical_lr with (a := nth a var1 []); auto; try (apply P1; now apply nth_In); try (apply P2; now apply nth_In).
          destruct (is_horizontal (nth a var2 [])) eqn:K; [|reflexivity].
          assert (K' : reg_dim (nth a var1 []) = hdim_temp) by (rewrite RDa; unfold reg_dim; now rewrite K).
          apply reg_dim_horizontal in K'. congruence. }
        assert (j = a) as -> by (apply Ov; auto). rewrite Nat.eqb_refl. cbn [option_map]. unfold flip_fun.
        destruct flip; reflexivity.
      * exfalso. destruct (G3 eq_refl _ _ Hj); congruence.
    + assert (Nv : flip = None \/ (j =? vpos (fv t) (upd l (fh t) (adj_fun t adj true))) = false).
      { destruct Hf as [Hf|Hf]; [now left|right]. destruct (fv t) as [a|] eqn:Ea; [|congruence]. cbn [vpos].
        apply Nat.eqb_neq. intros <-. rewrite <- Hv in F. destruct F as [F1 F2].
        rewrite Hj in F1. injection F1 as ->. destruct (G2 _ eq_refl) as [_ Q2].
        assert (is_vertical (nth j var2 []) = true); [|congruence].
        apply same_vertical_lr with (a := nth j var1 []); auto; apply Pv. }
      destruct Nv as [->| ->]; [|reflexivity]. destruct (j =? vpos _ _); reflexivity.
Qed.
Print Assumptions C33_addresses_partial.

Definition ex_d1 := map L ["horizontal_loop_extent"; "vertical_layer_dimension"; "number_of_tracers"]%string.
Definition ex_d2 := map L ["horizontal_dimension"; "vertical_layer_dimension"; "number_of_tracers"]%string.
Definition ex_p1 := map L ["horizontal_loop_extent"; "vertical_layer_dimension"; "number_of_tracers"]%string.
Definition ex_p2 := map L ["number_of_tracers"; "horizontal_dimension"; "vertical_layer_dimension"]%string.
Example C33_example :
  exists t, get_dim_transforms ex_d1 ex_d2 = Ok (true, Some t) /\ fh t = rh t /\ fv t = rv t /\ fv t <> None /\
    forward t (Some 11%Z) (Some 32%Z) [3; 5; 7]%Z = Some [13; 28; 7]%Z /\
    reverse t (Some 11%Z) (Some 32%Z) [13; 28; 7]%Z = Some [3; 5; 7]%Z.
Proof. eexists. split; [vm_compute; reflexivity|]. cbn [fh rh fv rv]. repeat split; congruence || reflexivity. Qed.
Example C33_example_perm :
  exists t, get_dim_transforms ex_p1 ex_p2 = Ok (false, Some t) /\
    forward t None None [3; 5; 7]%Z = Some [7; 3; 5]%Z /\ reverse t None None [7; 3; 5]%Z = Some [3; 5; 7]%Z.
Proof. eexists. split; [vm_compute; reflexivity|]. split; reflexivity. Qed.

(* A rotation of three dimensions with horizontal adjustment: the round trip
   does not return the original indices. *)
Theorem C33_round_trip_refuted :
  exists var1 var2 t adj idx idx2 idx3,
    get_dim_transforms var1 var2 = Ok (false, Some t) /\ length idx = length var1 /\
    forward t (Some adj) None idx = Some idx2 /\ reverse t (Some adj) None idx2 = Some idx3 /\ idx3 <> idx.
Proof.
  exists ex_p1, ex_p2. eexists. exists 11%Z, [3; 5; 7]%Z. do 2 eexists.
  split; [vm_compute; reflexivity|]. split; [reflexivity|]. split; [reflexivity|]. split; [reflexivity|]. discriminate.
Qed.
Print Assumptions C33_round_trip_refuted.

(* Swapping horizontal and vertical: the chunk offset is added to the vertical
   index, so another element is addressed. *)
Theorem C33_addresses_refuted :
  exists var1 var2 t idx idx2,
    get_dim_transforms var1 var2 = Ok (false, Some t) /\ length idx = length var1 /\
    forward t (Some 11%Z) None idx = Some idx2 /\ ~ addresses t var2 (Some 11%Z) None idx idx2.
Proof.
  exists (map L ["horizontal_loop_extent"; "vertical_layer_dimension"]%string),
         (map L ["vertical_layer_dimension"; "horizontal_dimension"]%string).
  eexists. exists [3; 5]%Z. eexists. split; [vm_compute; reflexivity|]. split; [reflexivity|]. split; [reflexivity|].
  intros [_ K]. specialize (K 0 1 5%Z eq_refl eq_refl). vm_compute in K. discriminate.
Qed.
Print Assumptions C33_addresses_refuted.

(* Permuted dimensions without a horizontal one are an internal error, although
   they are the same dimensions. *)
Theorem C33_needs_horizontal_refuted :
  exists var1 var2, Permutation var1 var2 /\ get_dim_transforms var1 var2 = Raise "ParseInternalError".
Proof.
  exists (map L ["vertical_layer_dimension"; "number_of_tracers"]%string),
         (map L ["number_of_tracers"; "vertical_layer_dimension"]%string).
  split; [apply perm_swap|vm_compute; reflexivity].
Qed.
Print Assumptions C33_needs_horizontal_refuted.

(* ---------------- C31: default lower bound ---------------- *)

(* 'n' against 'ccpp_constant_one:n' is recognized as the same range and then
   an internal error is raised for want of a horizontal dimension. *)
Theorem C31_default_bound_refuted :
  exists kinds v1 v2, vi_std v1 = vi_std v2 /\ vi_type v1 = vi_type v2 /\ vi_kind v1 = vi_kind v2 /\
    vi_units v1 = vi_units v2 /\ vi_top v1 = vi_top v2 /\
    vi_dims v1 = [L "number_of_tracers"] /\ vi_dims v2 = [L "ccpp_constant_one:number_of_tracers"] /\
    var_compat kinds false v1 v2 = Raise "ParseInternalError".
Proof.
  exists [], (mkVI (L "x") (L "real") (L "kind_phys") (L "1") [L "number_of_tracers"] false),
    (mkVI (L "x") (L "real") (L "kind_phys") (L "1") [L "ccpp_constant_one:number_of_tracers"] false).
  repeat split; vm_compute; reflexivity.
Qed.
Print Assumptions C31_default_bound_refuted.

(* ---------------- C32: equivalence ---------------- *)

(* Missing for the full claim: vertical orientation, character lengths and
   equality of the horizontal extents (refuted below). *)
Theorem C32_equivalent_interchangeable_partial :
  forall kinds v1 v2 o, var_compat kinds false v1 v2 = Ok o -> co_equiv o = true ->
    vi_std v1 = vi_std v2 /\ vi_type v1 = vi_type v2 /\
    (vi_type v1 <> L "character" -> kind_value kinds (vi_kind v1) = kind_value kinds (vi_kind v2)) /\
    (vi_units v1 = vi_units v2 \/ (lower (vi_units v1) = L "none" /\ lower (vi_units v2) = L "none")) /\
    Forall2 same_dim (vi_dims v1) (vi_dims v2) /\
    co_kind o = None /\ co_unit o = None.
Proof.
  intros kinds v1 v2 o H E. unfold var_compat in H. cbn [andb orb negb] in H.
  destruct (negb (str_eqb (vi_std v1) (vi_std v2)) || negb (str_eqb (vi_type v1) (vi_type v2))) eqn:Ef;
    [injection H as <-; discriminate|].
  apply orb_false_iff in Ef. destruct Ef as [E1 E2]. apply negb_false_iff, str_eqb_eq in E1. apply negb_false_iff, str_eqb_eq in E2.
  cbv zeta in H.
  destruct (str_eqb (vi_type v1) (L "character") && negb (char_kind_check (vi_kind v1) && char_kind_check (vi_kind v2)));
    [injection H as <-; discriminate|].
  set (kt := if str_eqb (vi_type v1) (L "character") || str_eqb (vi_kind v1) (vi_kind v2) then None
             else get_kind_convstrs kinds (vi_kind v1) (vi_kind v2)) in *.
  assert (KT : kt = None -> vi_type v1 <> L "character" -> kind_value kinds (vi_kind v1) = kind_value kinds (vi_kind v2)).
  { unfold kt. intros K N. destruct (str_eqb (vi_type v1) (L "character")) eqn:C; [apply str_eqb_eq in C; contradiction|].
    cbn [orb] in K. destruct (str_eqb (vi_kind v1) (vi_kind v2)) eqn:Ek; [apply str_eqb_eq in Ek; now rewrite Ek|].
    unfold get_kind_convstrs in K. destruct (str_eqb (kind_value kinds (vi_kind v1)) (kind_value kinds (vi_kind v2))) eqn:Ev; [|discriminate].
    now apply str_eqb_eq. }
  apply bind_ok in H. destruct H as (ut & Hu & H).
  assert (UT : ut = None -> vi_units v1 = vi_units v2 \/ (lower (vi_units v1) = L "none" /\ lower (vi_units v2) = L "none")).
  { intros ->. destruct (str_eqb (norm_units (vi_units v1)) (norm_units (vi_units v2))) eqn:Eu.
    - apply str_eqb_eq in Eu. unfold norm_units in Eu.
      destruct (str_eqb (lower (vi_units v1)) (L "none")) eqn:N1, (str_eqb (lower (vi_units v2)) (L "none")) eqn:N2;
        try apply str_eqb_eq in N1; try apply str_eqb_eq in N2; auto.
      + rewrite <- Eu in N2. vm_compute in N2. discriminate.
      + rewrite Eu in N1. vm_compute in N1. discriminate.
    - apply bind_ok in Hu. destruct Hu as (r & _ & K). discriminate. }
  destruct (strs_eqb (vi_dims v1) (vi_dims v2)) eqn:Ed; [apply strs_eqb_eq in Ed|].
  - injection H as <-. cbn [co_equiv co_kind co_unit] in *.
    apply andb_true_iff in E. destruct E as [Ea Eb]. destruct kt; [discriminate|]. destruct ut; [discriminate|].
    repeat split; auto. rewrite Ed. clear. induction (vi_dims v2); constructor; auto. right. now left.
  - apply bind_ok in H. destruct H as (dt & Hd & H). injection H as <-. cbn [co_equiv co_kind co_unit] in *.
    apply andb_true_iff in E. destruct E as [E Ec]. apply andb_true_iff in E. destruct E as [Ea Eb].
    destruct kt; [discriminate|]. destruct ut; [discriminate|]. repeat split; auto.
    assert (R : regularize (vi_dims v1) = regularize (vi_dims v2)).
    { unfold get_dim_transforms in Hd.
      set (same := strs_eqb (regularize (vi_dims v1)) (regularize (vi_dims v2))) in *.
      assert (fst dt = same).
      { destruct ((length (regularize (vi_dims v1)) =? length (regularize (vi_dims v2))) && same_multiset (regularize (vi_dims v1)) (regularize (vi_dims v2))).
        - destruct (negb _); [discriminate|]. destruct (all_some _); [|discriminate].
          apply bind_ok in Hd. destruct Hd as (t & _ & K). now injection K as <-.
        - now injection Hd as <-. }
      rewrite H in Ec. now apply strs_eqb_eq. }
    clear - R. revert R. generalize (vi_dims v2). induction (vi_dims v1) as [|a l IH]; intros [|b m] R; try discriminate; constructor.
    + injection R as R _. now apply reg_dim_same.
    + injection R as _ R. now apply IH.
Qed.
Print Assumptions C32_equivalent_interchangeable_partial.

(* Identical descriptions are equivalent and need nothing. *)
Theorem C32_identical_equivalent :
  forall kinds v, (vi_type v = L "character" -> char_kind_check (vi_kind v) = true) ->
    var_compat kinds false v v = Ok (mkCO true true None None None false).
Proof.
  intros kinds v Hc. unfold var_compat. rewrite !str_eqb_refl. cbn [negb orb andb]. cbv zeta.
  destruct (str_eqb (vi_type v) (L "character")) eqn:E.
  - apply str_eqb_eq in E. rewrite (Hc E). cbn [andb negb orb bind].
    now rewrite strs_eqb_refl, eqb_reflx.
  - cbn [andb negb orb bind].
    now rewrite strs_eqb_refl, eqb_reflx.
Qed.
Print Assumptions C32_identical_equivalent.

Definition ex_real top units kind dims := mkVI (L "air_temperature") (L "real") (L kind) (L units) dims top.
Example C32_example :
  (exists o, var_compat [(L "kind_phys", L "REAL64"); (L "kind_dyn", L "REAL64")] false
      (ex_real false "K" "kind_phys" ex_d1) (ex_real false "K" "kind_dyn" ex_d1) = Ok o /\ co_equiv o = true) /\
  (exists o, var_compat [] false (ex_real false "K" "kind_phys" ex_d1) (ex_real false "K" "kind_dyn" ex_d1) = Ok o /\ co_equiv o = false /\ co_compat o = true) /\
  var_compat [] false (mkVI (L "a") (L "character") (L "len=*") (L "None") [] false)
                      (mkVI (L "a") (L "character") (L "len=*") (L "None") [] false)
    = Ok (mkCO true true None None None false).
Proof. repeat split; try (eexists; vm_compute; repeat split; reflexivity); vm_compute; reflexivity. Qed.

(* Three pairs reported equivalent that are not interchangeable. *)
Theorem C32_character_length_refuted :
  exists v1 v2 o, vi_kind v1 = L "len=5" /\ vi_kind v2 = L "len=10" /\ vi_type v1 = L "character" /\
    var_compat [] false v1 v2 = Ok o /\ co_equiv o = true.
Proof.
  exists (mkVI (L "a") (L "character") (L "len=5") (L "none") [] false),
         (mkVI (L "a") (L "character") (L "len=10") (L "none") [] false).
  eexists. repeat split; vm_compute; reflexivity.
Qed.
Print Assumptions C32_character_length_refuted.
Theorem C32_orientation_refuted :
  exists v1 v2 o, vi_top v1 <> vi_top v2 /\ In (L "vertical_layer_dimension") (vi_dims v1) /\
    var_compat [] false v1 v2 = Ok o /\ co_equiv o = true.
Proof.
  exists (ex_real true "K" "kind_phys" ex_d1), (ex_real false "K" "kind_phys" ex_d1).
  eexists. split; [discriminate|]. split; [right; now left|]. split; vm_compute; reflexivity.
Qed.
Print Assumptions C32_orientation_refuted.
Theorem C32_horizontal_extent_refuted :
  exists v1 v2 o, In (L "horizontal_loop_extent") (vi_dims v1) /\ In (L "horizontal_dimension") (vi_dims v2) /\
    var_compat [] false v1 v2 = Ok o /\ co_equiv o = true.
Proof.
  exists (ex_real true "K" "kind_phys" ex_d1), (ex_real true "K" "kind_phys" ex_d2).
  eexists. split; [now left|]. split; [now left|]. split; vm_compute; reflexivity.
Qed.
Print Assumptions C32_horizontal_extent_refuted.

(* ---------------- C48: tendency units ---------------- *)
Lemma startswith_cons x p y s : startswith (x :: p) (y :: s) = Ascii.eqb x y && startswith p s.
Proof. unfold startswith. cbn [after_prefix]. destruct (Ascii.eqb x y); reflexivity. Qed.
Lemma before_first_s1 u : contains (L "s-1") u = false ->
  before_first (L "s-1") (u ++ L " s-1") = u ++ L " ".
Proof.
  induction u as [|c u IH]; intros H; [reflexivity|].
  cbn [contains] in H. apply orb_false_iff in H. destruct H as [H1 H2]. specialize (IH H2).
  cbn [app before_first].
  assert (S : startswith (L "s-1") (c :: u ++ L " s-1") = false).
  { change (L "s-1") with ["s"; "-"; "1"]%char in *. change (L " s-1") with [" "; "s"; "-"; "1"]%char.
    destruct u as [|c2 [|c3 u]]; cbn [app]; rewrite !startswith_cons in *.
    - cbn [Ascii.eqb]. apply andb_false_r.
    - rewrite (andb_comm (Ascii.eqb "-" c2)). cbn. apply andb_false_r.
    - exact H1. }
  rewrite S. f_equal. exact IH.
Qed.
Lemma strip_snoc_space u : strip u = u -> strip (u ++ L " ") = u.
Proof.
  intros H. destruct u as [|c u]; [reflexivity|].
  assert (Hc : is_space c = false).
  { unfold strip, lstrip, rstrip in H. destruct (is_space c) eqn:E; [|reflexivity]. exfalso.
    cbn [dropwhile] in H. rewrite E in H. apply (f_equal (@length _)) in H. rewrite rev_length in H. cbn [length] in H.
    destruct (dropwhile_app is_space (rev (dropwhile is_space u))) as (p & E1 & _).
    destruct (dropwhile_app is_space u) as (q & E2 & _).
    apply (f_equal (@length _)) in E1, E2. rewrite app_length in E1, E2. rewrite rev_length in E1. lia. }
  unfold strip, lstrip in *. cbn [app dropwhile] in *. rewrite Hc in *. unfold rstrip in *.
  change (c :: u ++ L " ") with ((c :: u) ++ L " "). rewrite rev_app_distr. exact H.
Qed.
Lemma lower_length s : length (lower s) = length s.
Proof. apply map_length. Qed.
Lemma norm_tendency u : norm_units (u ++ L " s-1") = u ++ L " s-1".
Proof.
  unfold norm_units. destruct (str_eqb (lower (u ++ L " s-1")) (L "none")) eqn:E; [|reflexivity].
  apply str_eqb_eq in E. pose proof (f_equal (@length _) E) as K. rewrite lower_length, app_length in K. cbn in K.
  destruct u; [vm_compute in E; discriminate|cbn in K; lia].
Qed.

(* A tendency whose units are the state units times s-1 is accepted, provided
   the state units do not contain 's-1' themselves (missing; refuted below). *)
Theorem C48_tendency_accepted_partial :
  forall kinds name v, let u := vi_units v in
    contains (L "s-1") u = false -> strip u = u -> lower u <> L "none" ->
    vi_type v <> L "character" ->
    var_compat kinds true
      (mkVI (L "tendency_of_" ++ name) (vi_type v) (vi_kind v) (u ++ L " s-1") (vi_dims v) (vi_top v)) v
    = Ok (mkCO true true None None None false).
Proof.
  intros kinds name v u Hc Hs Hn Ht. unfold var_compat. cbn [vi_std vi_type vi_kind vi_units vi_dims vi_top].
  assert (S : startswith (L "tendency_of") (L "tendency_of_" ++ name) = true) by reflexivity.
  rewrite S, !str_eqb_refl. cbn [negb andb orb].
  destruct (str_eqb (vi_type v) (L "character")) eqn:E; [apply str_eqb_eq in E; contradiction|].
  cbn [andb orb]. cbv zeta. rewrite norm_tendency, before_first_s1, strip_snoc_space by assumption.
  assert (N : norm_units u = u).
  { unfold norm_units. destruct (str_eqb (lower u) (L "none")) eqn:K; [apply str_eqb_eq in K; contradiction|reflexivity]. }
  fold u. rewrite N, str_eqb_refl, strs_eqb_refl, eqb_reflx. reflexivity.
Qed.
Print Assumptions C48_tendency_accepted_partial.

(* Whatever is accepted as a tendency has units that start with the state units. *)
Theorem C48_tendency_units_start_with_state_units :
  forall kinds v1 v2 o, var_compat kinds true v1 v2 = Ok o -> co_compat o = true ->
    vi_type v1 = vi_type v2 /\ startswith (L "tendency_of") (vi_std v1) = true /\
    strip (before_first (L "s-1") (norm_units (vi_units v1))) = norm_units (vi_units v2) /\ co_unit o = None.
Proof.
  intros kinds v1 v2 o H E. unfold var_compat in H. cbn [negb andb orb] in H.
  destruct (startswith (L "tendency_of") (vi_std v1)) eqn:Es; cbn [negb orb] in H; [|injection H as <-; discriminate].
  destruct (str_eqb (vi_type v1) (vi_type v2)) eqn:Et; cbn [negb orb] in H; [|injection H as <-; discriminate].
  apply str_eqb_eq in Et. cbv zeta in H.
  destruct (str_eqb (vi_type v1) (L "character") && negb (char_kind_check (vi_kind v1) && char_kind_check (vi_kind v2)));
    [injection H as <-; discriminate|].
  destruct (str_eqb (strip (before_first (L "s-1") (norm_units (vi_units v1)))) (norm_units (vi_units v2))) eqn:Eu;
    cbn [negb] in H; [|injection H as <-; discriminate].
  apply str_eqb_eq in Eu. repeat split; auto. cbn [bind] in H.
  destruct (strs_eqb (vi_dims v1) (vi_dims v2)).
  - now injection H as <-.
  - apply bind_ok in H. destruct H as (dt & _ & H). now injection H as <-.
Qed.
Print Assumptions C48_tendency_units_start_with_state_units.

Example C48_example :
  contains (L "s-1") (L "kg m-2") = false /\ strip (L "kg m-2") = L "kg m-2" /\
  var_compat [] true (mkVI (L "tendency_of_air_temperature") (L "real") (L "kind_phys") (L "K s-1") ex_d1 false)
                     (ex_real false "K" "kind_phys" ex_d1) = Ok (mkCO true true None None None false).
Proof. repeat split; vm_compute; reflexivity. Qed.

(* The tendency of a wind in m s-1 with units m s-1 s-1 is refused. *)
Theorem C48_state_with_rate_units_refuted :
  exists v1 v2 o, vi_units v2 = L "m s-1" /\ vi_units v1 = vi_units v2 ++ L " s-1" /\ vi_std v1 = L "tendency_of_" ++ vi_std v2 /\
    vi_type v1 = vi_type v2 /\ vi_kind v1 = vi_kind v2 /\ vi_dims v1 = vi_dims v2 /\ vi_top v1 = vi_top v2 /\
    var_compat [] true v1 v2 = Ok o /\ co_compat o = false.
Proof.
  exists (mkVI (L "tendency_of_x_wind") (L "real") (L "kind_phys") (L "m s-1 s-1") ex_d1 false),
         (mkVI (L "x_wind") (L "real") (L "kind_phys") (L "m s-1") ex_d1 false).
  eexists. repeat split; vm_compute; reflexivity.
Qed.
Print Assumptions C48_state_with_rate_units_refuted.

(* A variable in the state's own units, without a rate, is taken for its tendency;
   so is the tendency of a different variable. *)
Theorem C48_wrong_tendency_refuted :
  exists v1 v2 o, vi_units v1 = L "K" /\ vi_units v2 = L "K" /\ vi_std v1 = L "tendency_of_dew_point" /\ vi_std v2 = L "air_temperature" /\
    var_compat [] true v1 v2 = Ok o /\ co_compat o = true.
Proof.
  exists (mkVI (L "tendency_of_dew_point") (L "real") (L "kind_phys") (L "K") ex_d1 false),
         (mkVI (L "air_temperature") (L "real") (L "kind_phys") (L "K") ex_d1 false).
  eexists. repeat split; vm_compute; reflexivity.
Qed.
Print Assumptions C48_wrong_tendency_refuted.

(* ---------------- C49: kind conversions ---------------- *)

(* Between real variables of two named, different kinds the right-hand side is
   converted to the kind of the variable assigned to, in both directions.
   Missing: other types and unnamed kinds (refuted below). *)
Theorem C49_kind_conversion_partial :
  forall kinds v1 v2 o rhs, var_compat kinds false v1 v2 = Ok o -> vi_type v1 = L "real" ->
    vi_kind v1 <> [] -> vi_kind v2 <> [] -> co_compat o = true -> co_unit o = None ->
    (kind_value kinds (vi_kind v1) <> kind_value kinds (vi_kind v2) ->
       forward_text o v1 v2 rhs = L "real(" ++ rhs ++ L ", " ++ vi_kind v2 ++ L ")" /\
       reverse_text o v1 v2 rhs = L "real(" ++ rhs ++ L ", " ++ vi_kind v1 ++ L ")") /\
    (kind_value kinds (vi_kind v1) = kind_value kinds (vi_kind v2) ->
       forward_text o v1 v2 rhs = rhs /\ reverse_text o v1 v2 rhs = rhs).
Proof.
  intros kinds v1 v2 o rhs H Ht K1 K2 E U. unfold var_compat in H. cbn [andb orb negb] in H.
  destruct (negb (str_eqb (vi_std v1) (vi_std v2)) || negb (str_eqb (vi_type v1) (vi_type v2)));
    [injection H as <-; discriminate|].
  cbv zeta in H. rewrite Ht in H. change (str_eqb (L "real") (L "character")) with false in H. cbn [andb orb] in H.
  set (kt := if str_eqb (vi_kind v1) (vi_kind v2) then None
             else get_kind_convstrs kinds (vi_kind v1) (vi_kind v2)) in *.
  apply bind_ok in H. destruct H as (ut & Hu & H).
  assert (KO : co_kind o = kt).
  { destruct (strs_eqb (vi_dims v1) (vi_dims v2)); [now injection H as <-|].
    apply bind_ok in H. destruct H as (dt & _ & H). now injection H as <-. }
  unfold forward_text, reverse_text, convert_text. rewrite KO, U. unfold kt, get_kind_convstrs.
  split; intros Q.
  - destruct (str_eqb (vi_kind v1) (vi_kind v2)) eqn:Ek; [apply str_eqb_eq in Ek; rewrite Ek in Q; congruence|].
    destruct (str_eqb (kind_value kinds (vi_kind v1)) (kind_value kinds (vi_kind v2))) eqn:Ev; [apply str_eqb_eq in Ev; congruence|].
    cbn [fst snd]. split; reflexivity.
  - destruct (str_eqb (vi_kind v1) (vi_kind v2)); [split; reflexivity|].
    rewrite Q, str_eqb_refl. split; reflexivity.
Qed.
Print Assumptions C49_kind_conversion_partial.

Example C49_example :
  exists o, var_compat [(L "kind_phys", L "REAL64"); (L "kind_temp", L "REAL32")] false
     (ex_real false "K" "kind_phys" ex_d1) (ex_real false "K" "kind_temp" ex_d1) = Ok o /\ co_compat o = true /\ co_unit o = None /\
     forward_text o (ex_real false "K" "kind_phys" ex_d1) (ex_real false "K" "kind_temp" ex_d1) (L "t(:)") = L "real(t(:), kind_temp)".
Proof. eexists. repeat split; vm_compute; reflexivity. Qed.

Theorem C49_integer_refuted :
  exists v1 v2 o, vi_type v1 = L "integer" /\ vi_type v2 = L "integer" /\
    var_compat [] false v1 v2 = Ok o /\ co_compat o = true /\
    forward_text o v1 v2 (L "i") = L "real(i, kind_b)".
Proof.
  exists (mkVI (L "a") (L "integer") (L "kind_a") (L "1") [] false), (mkVI (L "a") (L "integer") (L "kind_b") (L "1") [] false).
  eexists. repeat split; vm_compute; reflexivity.
Qed.
Print Assumptions C49_integer_refuted.
Theorem C49_empty_kind_refuted :
  exists v1 v2 o, vi_type v1 = L "real" /\ vi_kind v2 = [] /\ var_compat [] false v1 v2 = Ok o /\ co_compat o = true /\
    forward_text o v1 v2 (L "x") = L "real(x, )".
Proof.
  exists (mkVI (L "a") (L "real") (L "kind_a") (L "1") [] false), (mkVI (L "a") (L "real") [] (L "1") [] false).
  eexists. repeat split; vm_compute; reflexivity.
Qed.
Print Assumptions C49_empty_kind_refuted.

(* A unit conversion inserts the right-hand side, converted to the target kind if
   the kinds differ, and the kind suffix of the target, into the formula. *)
Lemma subst_formula var kind : forall f fuel, plain_formula f -> length (formula_text f) <= fuel ->
  subst_template fuel (formula_text f) var kind = formula_with f var kind.
Proof.
  assert (OTHER : forall c t, c <> "{"%char -> after_prefix (L "{var}") (c :: t) = None /\ after_prefix (L "{kind}") (c :: t) = None).
  { intros c t N. split.
    - destruct (after_prefix (L "{var}") (c :: t)) as [r|] eqn:E; auto. apply after_prefix_some in E. cbn in E. congruence.
    - destruct (after_prefix (L "{kind}") (c :: t)) as [r|] eqn:E; auto. apply after_prefix_some in E. cbn in E. congruence. }
  induction f as [|x f IH]; intros fuel P LE.
  - destruct fuel; reflexivity.
  - assert (P' : plain_formula f) by (intros s I; apply P; now right).
    change (formula_text (x :: f)) with
      ((match x with Txt s => s | VarHere => L "{var}" | KindHere => L "{kind}" end) ++ formula_text f) in *.
    change (formula_with (x :: f) var kind) with
      ((match x with Txt s => s | VarHere => var | KindHere => kind end) ++ formula_with f var kind).
    destruct x as [s| |].
    + specialize (P s (or_introl eq_refl)). revert fuel LE. induction s as [|c s IHs]; intros fuel LE; [now apply IH|].
      cbn [app length] in *. destruct fuel as [|fuel]; [lia|].
      assert (N : c <> "{"%char) by (intros ->; apply P; now left).
      destruct (OTHER c (s ++ formula_text f) N) as [E1 E2]. cbn [subst_template]. rewrite E1, E2. f_equal.
      apply IHs; [intros I; apply P; now right|lia].
    + rewrite app_length in LE. destruct fuel as [|fuel]; [cbn in LE; lia|].
      transitivity (var ++ subst_template fuel (formula_text f) var kind); [reflexivity|].
      rewrite IH; auto. cbn in LE. lia.
    + rewrite app_length in LE. destruct fuel as [|fuel]; [cbn in LE; lia|].
      transitivity (kind ++ subst_template fuel (formula_text f) var kind); [reflexivity|].
      rewrite IH; auto. cbn in LE. lia.
Qed.
Theorem C49_unit_conversion_text :
  forall kinds v1 v2 o rhs fw rv, var_compat kinds false v1 v2 = Ok o -> vi_type v1 = L "real" ->
    vi_kind v1 <> [] -> vi_kind v2 <> [] -> co_compat o = true ->
    co_unit o = Some (formula_text fw, formula_text rv) -> plain_formula fw -> plain_formula rv ->
    (kind_value kinds (vi_kind v1) <> kind_value kinds (vi_kind v2) ->
       forward_text o v1 v2 rhs = formula_with fw (L "real(" ++ rhs ++ L ", " ++ vi_kind v2 ++ L ")") (L "_" ++ vi_kind v2) /\
       reverse_text o v1 v2 rhs = formula_with rv (L "real(" ++ rhs ++ L ", " ++ vi_kind v1 ++ L ")") (L "_" ++ vi_kind v1)) /\
    (kind_value kinds (vi_kind v1) = kind_value kinds (vi_kind v2) ->
       forward_text o v1 v2 rhs = formula_with fw rhs (L "_" ++ vi_kind v2) /\
       reverse_text o v1 v2 rhs = formula_with rv rhs (L "_" ++ vi_kind v1)).
Proof.
  intros kinds v1 v2 o rhs fw rv H Ht K1 K2 E U PF PR. unfold var_compat in H. cbn [andb orb negb] in H.
  destruct (negb (str_eqb (vi_std v1) (vi_std v2)) || negb (str_eqb (vi_type v1) (vi_type v2)));
    [injection H as <-; discriminate|].
  cbv zeta in H. rewrite Ht in H. change (str_eqb (L "real") (L "character")) with false in H. cbn [andb orb] in H.
  set (kt := if str_eqb (vi_kind v1) (vi_kind v2) then None
             else get_kind_convstrs kinds (vi_kind v1) (vi_kind v2)) in *.
  apply bind_ok in H. destruct H as (ut & Hu & H).
  assert (KO : co_kind o = kt).
  { destruct (strs_eqb (vi_dims v1) (vi_dims v2)); [now injection H as <-|].
    apply bind_ok in H. destruct H as (dt & _ & H). now injection H as <-. }
  unfold forward_text, reverse_text, convert_text. rewrite KO, U, Ht.
  change (str_eqb (L "real") (L "character")) with false. unfold kt, get_kind_convstrs.
  split; intros Q.
  - destruct (str_eqb (vi_kind v1) (vi_kind v2)) eqn:Ek; [apply str_eqb_eq in Ek; rewrite Ek in Q; congruence|].
    destruct (str_eqb (kind_value kinds (vi_kind v1)) (kind_value kinds (vi_kind v2))) eqn:Ev; [apply str_eqb_eq in Ev; congruence|].
    cbn [fst snd]. destruct (vi_kind v1) as [|a1 k1]; [congruence|]. destruct (vi_kind v2) as [|a2 k2]; [congruence|].
    split; apply subst_formula; auto.
  - assert (EN : (if str_eqb (vi_kind v1) (vi_kind v2) then None else
                  if str_eqb (kind_value kinds (vi_kind v1)) (kind_value kinds (vi_kind v2)) then @None (str * str) else Some (vi_kind v1, vi_kind v2)) = None)
      by (rewrite Q, str_eqb_refl; now destruct (str_eqb (vi_kind v1) (vi_kind v2))).
    rewrite EN. cbn [fst snd]. destruct (vi_kind v1) as [|a1 k1]; [congruence|]. destruct (vi_kind v2) as [|a2 k2]; [congruence|].
    split; apply subst_formula; auto.
Qed.
Print Assumptions C49_unit_conversion_text.
(* every formula of the conversion table is such a formula *)
Fixpoint pieces (fuel : nat) (s : str) : list piece :=
  match fuel, s with
  | S fuel, c :: t =>
      match after_prefix (L "{var}") s with
      | Some r => VarHere :: pieces fuel r
      | None => match after_prefix (L "{kind}") s with
                | Some r => KindHere :: pieces fuel r
                | None => Txt [c] :: pieces fuel t
                end
      end
  | _, _ => []
  end.
Theorem C49_conversion_table_plain :
  forall n t, In (n, t) unit_functions -> exists f, t = formula_text f /\ plain_formula f.
Proof.
  intros n t I. exists (pieces (length t) t).
  assert (A : forallb (fun p : str * str => str_eqb (formula_text (pieces (length (snd p)) (snd p))) (snd p) &&
      forallb (fun x => match x with Txt s => negb (existsb (Ascii.eqb "{") s) | _ => true end) (pieces (length (snd p)) (snd p)))
      unit_functions = true) by (vm_compute; reflexivity).
  rewrite forallb_forall in A. specialize (A _ I). cbn [snd] in A. apply andb_true_iff in A as [A1 A2].
  split; [symmetry; now apply str_eqb_eq|]. intros s J K. rewrite forallb_forall in A2. specialize (A2 _ J).
  cbn in A2. apply negb_true_iff in A2. assert (X : existsb (Ascii.eqb "{"%char) s = true) by (apply existsb_exists; eexists; split; [eassumption|apply Ascii.eqb_refl]).
  congruence.
Qed.
Print Assumptions C49_conversion_table_plain.
Example C49_unit_example :
  exists o, var_compat [] false (ex_real false "m" "kind_phys" ex_d1) (ex_real false "cm" "kind_temp" ex_d1) = Ok o /\
     co_compat o = true /\ co_unit o = Some (formula_text [Txt (L "1.0E+2"); KindHere; Txt (L "*"); VarHere], formula_text [Txt (L "1.0E-2"); KindHere; Txt (L "*"); VarHere]) /\
     forward_text o (ex_real false "m" "kind_phys" ex_d1) (ex_real false "cm" "kind_temp" ex_d1) (L "t(:)") = L "1.0E+2_kind_temp*real(t(:), kind_temp)".
Proof. eexists. repeat split; vm_compute; reflexivity. Qed.
