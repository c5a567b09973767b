(* VrProps.v: descriptions of variables (C182-C184). *)
From Coq Require Import List Ascii String ZArith Bool Lia.
From Verif Require Import PyStr Base Regex PhaseModel PhaseSpec PhaseProofs PhaseProps CheckModel CheckSpec CheckProofs LitProofs CheckProps ArProofs VrModel VrSpec VrProofs.
Import ListNotations.
Open Scope nat_scope. Open Scope list_scope.

(* C182: a variable is created from a dictionary of properties exactly if the dictionary is a legal description *)
Theorem C182_accepted : forall (float_of : str -> option pyfloat) (names : list str) (scheme : bool) (d : dict), ordinary d -> decided d -> (forall v, ~ given d Pddt_type v) ->
  ((exists v, make_var float_of (registered names) scheme d = Ok v) <-> legal float_of names scheme d).
Proof.
  intros fl names scheme d OD DD ND. rewrite make_built. assert (G : ddt_rules d = (d, false)) by (unfold ddt_rules; now rewrite (proj2 (get_none d Pddt_type) ND)).
  rewrite G. now apply built_ok.
Qed.
Definition ps (s : string) : pv := PS (L s).
Definition d0 : dict := [(Plocal_name, ps "qv(:,:,ncol)"); (Pstandard_name, ps "water_vapor_0p5"); (Punits, ps "kg kg-1"); (Pdimensions, PL [L "horizontal_dimension"; L "1:nz"]); (Ptype, ps "real"); (Pintent, ps "in"); (Pprotected, PB true); (Padvected, PB true)].
Definition no_float (s : str) : option pyfloat := None.
Lemma no_nl_text (d : dict) : forallb (fun x => match snd x with PS s => negb (existsb (Ascii.eqb nl) s) | _ => true end) d = true -> forall n s, given d n (PS s) -> ~ ends_nl s.
Proof. intros H n s G. rewrite forallb_forall in H. apply H in G. cbn in G. apply negb_true_iff in G. now apply no_nl_dec. Qed.
Lemma nonempty_text (d : dict) : forallb (fun x => match snd x with PS [] => false | _ => true end) d = true -> forall n, ~ given d n (PS []).
Proof. intros H n G. rewrite forallb_forall in H. apply H in G. discriminate. Qed.
Fixpoint distinct (l : list prop) : bool := match l with [] => true | x :: r => negb (existsb (fun y => if prop_dec x y then true else false) r) && distinct r end.
Lemma nodup_text (d : dict) : distinct (map fst d) = true -> NoDup (map fst d).
Proof.
  induction (map fst d) as [|x r IH]; intros H; constructor; cbn [distinct] in H; apply andb_true_iff in H as [H1 H2]; [|auto].
  intros I. apply negb_true_iff in H1. assert (Y : existsb (fun y => if prop_dec x y then true else false) r = true); [|congruence].
  apply existsb_exists. exists x. split; [exact I|]. destruct (prop_dec x x); congruence.
Qed.
Example C182_nonvacuous : ordinary d0 /\ decided d0 /\ (forall v, ~ given d0 Pddt_type v) /\ legal no_float [] true d0 /\
  (exists v, make_var no_float (registered []) true d0 = Ok v) /\ make_var no_float (registered []) true (del Pintent d0) = Raise "ParseSyntaxError" /\
  (exists v, make_var no_float (registered []) false (del Pintent d0) = Ok v) /\ make_var no_float (registered []) true (set Pintent (ps "out") d0) = Raise "ParseSyntaxError" /\
  make_var no_float (registered []) true (set Ptype (ps "ty_ddt") (del Pprotected d0)) = Raise "ParseSyntaxError" /\ make_var no_float (registered []) true (set (Pother (L "colour")) (ps "red") d0) = Raise "ParseSyntaxError".
Proof.
  assert (OD : ordinary d0).
  { split; [apply nodup_text; reflexivity|]. split; [apply no_nl_text; reflexivity|]. intros n _. apply nonempty_text. reflexivity. }
  assert (DD : decided d0).
  { intros _ s t k G T K _. apply (text_of_iff _ _ _ (proj1 OD)) in T, K. apply (get_given _ _ _ (proj1 OD)) in G. vm_compute in G. injection G as <-. subst t k. eexists. vm_compute. reflexivity. }
  assert (ND : forall v, ~ given d0 Pddt_type v) by (apply get_none; reflexivity).
  assert (MK : exists v, make_var no_float (registered []) true d0 = Ok v) by (eexists; vm_compute; reflexivity).
  split; [exact OD|]. split; [exact DD|]. split; [exact ND|]. split; [now apply C182_accepted|]. split; [exact MK|].
  split; [vm_compute; reflexivity|]. split; [eexists; vm_compute; reflexivity|]. repeat split; vm_compute; reflexivity.
Qed.
Print Assumptions C182_accepted.

(* ddt_type: it becomes the kind, and the type unless that is given; units may be missing *)
Theorem C182_ddt : forall (float_of : str -> option pyfloat) (names : list str) (scheme : bool) (d0 : dict) (t : pv), NoDup (map fst d0) -> given d0 Pddt_type t ->
  exists d, NoDup (map fst d) /\
    (forall n v, given d n v <-> match n with
      | Pddt_type => False
      | Pkind => v = t
      | Ptype => given d0 Ptype v \/ (v = t /\ forall w, ~ given d0 Ptype w)
      | Punits => given d0 Punits v \/ (v = PS [] /\ forall w, ~ given d0 Punits w)
      | _ => given d0 n v end) /\
    (forall v, make_var float_of (registered names) scheme d0 = Ok v -> v_props v = d /\ v_ddt v = true) /\
    (ordinary d -> decided d -> ((exists v, make_var float_of (registered names) scheme d0 = Ok v) <-> legal float_of names scheme d)).
Proof.
  intros fl names scheme e t N G. exists (fst (ddt_rules e)).
  assert (E : ddt_rules e = (fst (ddt_rules e), true)) by (unfold ddt_rules; rewrite (proj2 (get_given e _ t N) G); reflexivity).
  set (d1 := if has Ptype e then e else set Ptype t e). set (d2 := if has Punits d1 then d1 else set Punits (PS []) d1).
  assert (F : fst (ddt_rules e) = del Pddt_type (set Pkind t d2)) by (unfold ddt_rules; rewrite (proj2 (get_given e _ t N) G); reflexivity).
  assert (N1 : NoDup (map fst d1)) by (unfold d1; destruct (has Ptype e); [auto|now apply nodup_set]).
  assert (N2 : NoDup (map fst d2)) by (unfold d2; destruct (has Punits d1); [auto|now apply nodup_set]).
  assert (HN : forall m x, has m x = false -> forall w, ~ given x m w) by (intros m x H w W; assert (Y : has m x = true) by (apply has_given; eauto); congruence).
  assert (G1 : forall n v, given d1 n v <-> match n with Ptype => given e Ptype v \/ (v = t /\ forall w, ~ given e Ptype w) | _ => given e n v end).
  { intros n v. unfold d1. destruct (has Ptype e) eqn:H.
    - destruct n; try reflexivity. split; [now left|]. intros [A|[_ A]]; [exact A|]. apply has_given in H as (w & W). elim (A w W).
    - rewrite given_set. specialize (HN _ _ H). destruct n; try (split; [intros [[A _]|[_ A]]; [discriminate|exact A]|intros A; right; split; [discriminate|exact A]]).
      split; [intros [[_ A]|[A _]]; [right; auto|congruence]|]. intros [A|[A _]]; [elim (HN v A)|left; auto]. }
  assert (G2 : forall n v, given d2 n v <-> match n with Punits => given d1 Punits v \/ (v = PS [] /\ forall w, ~ given d1 Punits w) | _ => given d1 n v end).
  { intros n v. unfold d2. destruct (has Punits d1) eqn:H.
    - destruct n; try reflexivity. split; [now left|]. intros [A|[_ A]]; [exact A|]. apply has_given in H as (w & W). elim (A w W).
    - rewrite given_set. specialize (HN _ _ H). destruct n; try (split; [intros [[A _]|[_ A]]; [discriminate|exact A]|intros A; right; split; [discriminate|exact A]]).
      split; [intros [[_ A]|[A _]]; [right; auto|congruence]|]. intros [A|[A _]]; [elim (HN v A)|left; auto]. }
  split; [rewrite F; apply nodup_del; now apply nodup_set|]. split; [|split].
  - intros n v. rewrite F, given_del, given_set.
    destruct n; try (split; [intros [_ [[A _]|[_ A]]]; [discriminate|]; apply G2 in A; apply G1 in A; exact A|intros A; split; [discriminate|]; right; split; [discriminate|]; apply G2; apply G1; exact A]).
    + split; [intros [_ [[A _]|[_ A]]]; [discriminate|]|intros A; split; [discriminate|]; right; split; [discriminate|]; apply G2].
      * apply G2 in A. destruct A as [A|[A B]]; [left; now apply (G1 Punits v)|]. right. split; [exact A|]. intros w W. apply (B w). now apply (G1 Punits w).
      * destruct A as [A|[A B]]; [left; now apply (G1 Punits v)|]. right. split; [exact A|]. intros w W. apply (B w). now apply (G1 Punits w).
    + split; [intros [_ [[_ A]|[A _]]]; [exact A|congruence]|]. intros ->. split; [discriminate|]. now left.
    + split; [intros [A _]; congruence|intros []].
  - intros v H. rewrite make_built, E in H. cbn [fst snd] in H. apply built_inv in H as (A & B & _). auto.
  - intros OD DD. rewrite make_built, E. cbn [fst snd]. now apply built_ok.
Qed.
Definition d1 : dict := [(Plocal_name, ps "phys"); (Pstandard_name, ps "physics_state"); (Pdimensions, PL []); (Pddt_type, ps "ty_phys")].
Example C182_ddt_nonvacuous : exists v, make_var no_float (registered [L "ty_phys"]) false d1 = Ok v /\
  get Pkind (v_props v) = Some (ps "ty_phys") /\ get Ptype (v_props v) = Some (ps "ty_phys") /\ get Punits (v_props v) = Some (PS []) /\ make_var no_float (registered []) false d1 = Raise "ParseSyntaxError".
Proof. eexists. split; [vm_compute; reflexivity|]. repeat split; vm_compute; reflexivity. Qed.
Print Assumptions C182_ddt.

(* names that are empty are not checked: an empty string is false in Python *)
Theorem C182_empty_refuted : exists d, NoDup (map fst d) /\ given d Plocal_name (PS []) /\ given d Pstandard_name (PS []) /\ given d Ptype (PS []) /\
  (exists v, make_var no_float (registered []) true d = Ok v) /\ ~ legal no_float [] true d.
Proof.
  exists [(Plocal_name, PS []); (Pstandard_name, PS []); (Punits, ps "1"); (Pdimensions, PL []); (Ptype, PS []); (Pintent, ps "in")].
  split; [apply nodup_text; reflexivity|]. split; [now left|]. split; [right; now left|]. split; [do 4 right; now left|]. split; [eexists; vm_compute; reflexivity|].
  intros (V & _). specialize (V Pstandard_name (PS []) (or_intror (or_introl eq_refl))). inversion V; subst; try kill. match goal with H : fortran_name [] |- _ => destruct H as (c & r & H & _); discriminate end.
Qed.
Print Assumptions C182_empty_refuted.
(* an illegal description need not give a syntax error with the name of the variable: a molar mass that is no number gives ValueError, and a
   protected variable of a derived type whose name ends with the name of the type ParseInternalError, although that description is legal *)
Theorem C182_crash_refuted : (exists d, ordinary d /\ ~ legal no_float [] true d /\ make_var no_float (registered []) true d = Raise "ValueError") /\
  (exists d m, legal no_float [L "ty"] false d /\ make_var no_float (registered [L "ty"]) false d = Raise m /\ prefix "ParseInternalError" m = true).
Proof.
  split.
  - set (d := set Pmolar_mass (ps "heavy") d0). exists d.
    assert (OD : ordinary d). { split; [apply nodup_text; reflexivity|]. split; [apply no_nl_text; reflexivity|]. intros n _. apply nonempty_text. reflexivity. }
    split; [exact OD|]. split; [|vm_compute; reflexivity]. intros (V & _). specialize (V Pmolar_mass (ps "heavy")). assert (G : given d Pmolar_mass (ps "heavy")) by (apply get_given; [apply OD|reflexivity]).
    specialize (V G). inversion V; subst; try kill. discriminate.
  - set (d := [(Plocal_name, ps "s_ty"); (Pstandard_name, ps "state"); (Punits, PS []); (Pdimensions, PL []); (Ptype, ps "ty"); (Pkind, ps "ty"); (Pprotected, PB true)]).
    exists d. eexists. split; [|split; [vm_compute; reflexivity|reflexivity]].
    split; [|split; [|split; [discriminate|]]].
    + intros n v G. repeat (destruct G as [G|G]; [injection G as <- <-|]); [| | | | | | |destruct G].
      * apply Va_local. left. split; [|now left]. apply id_dollar; [now apply no_nl_dec|reflexivity].
      * apply Va_standard. apply id_dollar; [now apply no_nl_dec|reflexivity].
      * apply Va_units. now left.
      * apply Va_dimensions. constructor.
      * apply Va_type. right. now left.
      * apply Va_text. right. now left.
      * apply Va_bool; [cbv [bool_prop In]; tauto|discriminate].
    + intros n I. apply has_given. repeat (destruct I as [<-|I]; [reflexivity|]). destruct I.
    + intros _ v G. repeat (destruct G as [G|G]; [discriminate|]). destruct G.
Qed.
Print Assumptions C182_crash_refuted.

(* C183: the value of a property is the given one, or its default *)
Theorem C183_given : forall (d : dict) (n : prop) (v : pv), NoDup (map fst d) -> given d n v -> get_prop_value d n = Some v.
Proof. intros d n v N G. unfold get_prop_value. now rewrite (proj2 (get_given d n v N) G). Qed.
Print Assumptions C183_given.
Theorem C183_default : forall (d : dict) (n : prop), (forall v, ~ given d n v) ->
  get_prop_value d n =
    match n with
    | Pstate_variable | Pprotected | Pallocatable | Ppolymorphic | Ptop_at_one | Poptional | Ptarget | Padvected | Pconstituent => Some (PB false)
    | Pdiagnostic_name | Pdiagnostic_name_fixed | Pdefault_value => Some (ps "")
    | Ppersistence => Some (ps "timestep")
    | Pactive => Some (ps ".true.")
    | Pmolar_mass => Some (PF (mkF (L "0.0") true true))
    | Plong_name => Some (PS (long_name (str_at Pstandard_name d)))
    | Pkind => Some (PS (default_kind (str_at Ptype d)))
    | _ => None
    end.
Proof. intros d n H. unfold get_prop_value. rewrite (proj2 (get_none d n) H). destruct n; reflexivity. Qed.
Print Assumptions C183_default.
(* the default long name is the standard name with a capital, blanks for underscores, and a point for each p between digits *)
Theorem C183_long_name : forall (d : dict) (s : str), NoDup (map fst d) -> given d Pstandard_name (PS s) -> (forall v, ~ given d Plong_name v) ->
  exists t, get_prop_value d Plong_name = Some (PS t) /\ List.length t = List.length s /\
    forall i c, nth_error s i = Some c ->
      (i = 0 -> nth_error t i = Some (upper_c c)) /\
      (i <> 0 -> c = "_"%char -> nth_error t i = Some " "%char) /\
      (i <> 0 -> c <> "_"%char -> forall j a b, i = Datatypes.S j -> c = "p"%char -> nth_error s j = Some a -> nth_error s (Datatypes.S i) = Some b -> is_digit a = true -> is_digit b = true -> nth_error t i = Some "."%char) /\
      (i <> 0 -> c <> "_"%char -> ~ (c = "p"%char /\ exists j a b, i = Datatypes.S j /\ nth_error s j = Some a /\ nth_error s (Datatypes.S i) = Some b /\ is_digit a = true /\ is_digit b = true) -> nth_error t i = Some c).
Proof.
  intros d s N G H. exists (long_name s). assert (ST : str_at Pstandard_name d = s) by (apply (text_of_iff d _ _ N); now left).
  split; [rewrite C183_default by exact H; now rewrite ST|]. rewrite long_name_eq. destruct (subst_loop_spec (List.length (blanked s)) (blanked s) (count_p_le _)) as (L1 & L2 & L3).
  split; [rewrite L1; apply blanked_len|]. intros i c C.
  assert (B : nth_error (blanked s) i = Some (match i with 0 => upper_c c | _ => if Ascii.eqb c "_" then " "%char else c end)) by now apply blanked_nth.
  assert (D3 : ~ dpd s i -> nth_error (subst_loop (List.length (blanked s)) (blanked s)) i = Some (match i with 0 => upper_c c | _ => if Ascii.eqb c "_" then " "%char else c end)).
  { intros X. rewrite L3; [exact B|]. intros Y. apply X. now apply blanked_dpd. }
  split; [|split; [|split]].
  - intros ->. apply D3. intros (j & a & b & E & _). discriminate.
  - intros NZ ->. destruct i; [congruence|]. rewrite D3; [reflexivity|]. intros (j & a & b & E & _ & _ & P & _). congruence.
  - intros NZ _ j a b -> -> A1 A2 A3 A4. apply L2. apply blanked_dpd. exists j, a, b. repeat split; auto.
  - intros NZ NU X. destruct i; [congruence|]. rewrite D3; [destruct (Ascii.eqb c "_") eqn:E; [apply Ascii.eqb_eq in E; contradiction|reflexivity]|].
    intros (j & a & b & E & A1 & A2 & P & A3 & A4). apply X. split; [congruence|]. exists j, a, b. auto.
Qed.
Example C183_long_nonvacuous : long_name (L "cloud_depth_0p55mu_p_1p0p2") = L "Cloud depth 0.55mu p 1.0.2".
Proof. vm_compute. reflexivity. Qed.
Print Assumptions C183_long_name.
(* the default kind is kind_phys for real, complex and double precision, in any case of letters, and none for the others *)
Theorem C183_kind : forall (d : dict) (t : str), NoDup (map fst d) -> given d Ptype (PS t) -> (forall v, ~ given d Pkind v) ->
  ((lower t = L "real" \/ lower t = L "complex" \/ (exists w r, all_space w /\ lower t = L "double" ++ w ++ L "precision" ++ r)) /\ get_prop_value d Pkind = Some (ps "kind_phys")) \/
  (~ (lower t = L "real" \/ lower t = L "complex" \/ (exists w r, all_space w /\ lower t = L "double" ++ w ++ L "precision" ++ r)) /\ get_prop_value d Pkind = Some (ps "")).
Proof.
  intros d t N G H. rewrite C183_default by exact H. assert (ST : str_at Ptype d = t) by (apply (text_of_iff d _ _ N); now left). rewrite ST. unfold default_kind.
  assert (LI : lower (lower t) = lower t) by apply lower_idem.
  assert (DP : re_prefix dp_re (lower t) = true <-> exists w r, all_space w /\ lower t = L "double" ++ w ++ L "precision" ++ r).
  { rewrite re_prefix_spec. split.
    - intros (a & b & E & I). unfold dp_re in I. apply in_cat in I as (x & y & -> & X & Y). apply in_cat in Y as (w & z & -> & W & Z). apply in_wordi in X, Z. apply star_space in W.
      assert (AL : forall p q k, lower t = p ++ k ++ q -> lower k = k) by (intros p q k Q; rewrite Q in LI; unfold lower in LI; rewrite !map_app in LI; apply app_inv_length in LI as [_ LI]; [|now rewrite map_length]; apply app_inv_length in LI as [LI _]; [exact LI|now rewrite map_length]).
      exists w, b. split; [exact W|]. rewrite E. rewrite <- !app_assoc.
      assert (X1 : lower x = x) by (apply (AL [] ((w ++ z) ++ b)); rewrite E; now rewrite <- !app_assoc).
      assert (Z1 : lower z = z) by (apply (AL (x ++ w) b); rewrite E; now rewrite <- !app_assoc). 
      rewrite X1 in X. rewrite Z1 in Z. now rewrite X, Z.
    - intros (w & r & W & E). exists (L "double" ++ w ++ L "precision"), r. split; [rewrite E; now rewrite <- !app_assoc|].
      unfold dp_re. apply in_cat. exists (L "double"), (w ++ L "precision"). split; auto. split; [now apply in_wordi|]. apply in_cat. exists w, (L "precision").
      split; auto. split; [now apply star_space|now apply in_wordi]. }
  destruct (str_eqb (lower t) (L "real")) eqn:E1; [left; apply str_eqb_eq in E1; auto|].
  destruct (str_eqb (lower t) (L "complex")) eqn:E2; [left; apply str_eqb_eq in E2; auto|]. apply str_eqb_neq in E1, E2.
  destruct (re_prefix dp_re (lower t)); cbn [orb]; [left|right]; (split; [|reflexivity]).
  - right. right. now apply DP.
  - intros [A|[A|A]]; [contradiction|contradiction|]. apply DP in A. discriminate.
Qed.
Print Assumptions C183_kind.
(* a type that is accepted with blanks around it has no default kind *)
Theorem C183_kind_blank_refuted : exists d, NoDup (map fst d) /\ (exists v, make_var no_float (registered []) false d = Ok v) /\ given d Ptype (ps " real") /\ get_prop_value d Pkind = Some (ps "").
Proof.
  exists [(Plocal_name, ps "t"); (Pstandard_name, ps "temperature"); (Punits, ps "K"); (Pdimensions, PL []); (Ptype, ps " real")].
  split; [apply nodup_text; reflexivity|]. split; [eexists; vm_compute; reflexivity|]. split; [do 4 right; now left|]. vm_compute. reflexivity.
Qed.
Print Assumptions C183_kind_blank_refuted.
(* a variable is a constituent exactly if it has a property of constituents with a value other than the default *)
Theorem C183_constituent : forall (float_of : str -> option pyfloat) (ddts : list str) (scheme : bool) (d : dict) (v : var), NoDup (map fst d) -> make_var float_of ddts scheme d = Ok v -> (forall t, ~ given d Pddt_type t) ->
  v_props v = d /\ (v_constituent v = true <-> exists n w, (n = Padvected \/ n = Pmolar_mass \/ n = Pconstituent) /\ given d n w /\ w <> PB false /\ (forall f, w = PF f -> f_zero f = false)).
Proof.
  intros fl ddts scheme d v N H NT. rewrite make_built in H. assert (G : ddt_rules d = (d, false)) by (unfold ddt_rules; now rewrite (proj2 (get_none d Pddt_type) NT)).
  rewrite G in H. cbn [fst snd] in H. apply built_inv in H as (A & _ & C). split; [exact A|]. rewrite C.
  assert (CA : forall n, constituent_at n d = true <-> exists w, given d n w /\ w <> PB false /\ (forall f, w = PF f -> f_zero f = false)).
  { intros n. unfold constituent_at. destruct (get n d) as [w|] eqn:GW.
    - apply (get_given d n w N) in GW. split.
      + intros ND. exists w. split; [exact GW|]. split; [intros ->; discriminate|]. intros f ->. cbn in ND. now apply negb_true_iff.
      + intros (u & U & U1 & U2). rewrite (given_fun d n u w N U GW) in *. destruct w as [s|b|l|f]; try reflexivity; [destruct b; [reflexivity|congruence]|]. cbn. rewrite (U2 f eq_refl). reflexivity.
    - split; [discriminate|]. intros (w & W & _). elim (proj1 (get_none d n) GW w W). }
  rewrite !orb_true_iff, !CA. split.
  - intros [[(w & W)|(w & W)]|(w & W)]; [exists Padvected, w|exists Pmolar_mass, w|exists Pconstituent, w]; tauto.
  - intros (n & w & [-> |[-> | ->]] & W); [left; left|left; right|right]; eauto.
Qed.
Print Assumptions C183_constituent.
(* the text "false" is a value of a Boolean property, and means false to the metadata reader; a variable created with it is a constituent,
   and one created with protected = "false" is refused with intent out *)
Theorem C183_false_text_refuted : (exists d v, given d Padvected (ps "false") /\ legal no_float [] false d /\ make_var no_float (registered []) false d = Ok v /\ v_constituent v = true) /\
  valid_value no_float [] None Padvected (ps "false") true = Ok (Some (PB false)) /\
  (exists d, given d Pprotected (ps "false") /\ given d Pintent (ps "out") /\ make_var no_float (registered []) true d = Raise "ParseSyntaxError" /\ exists v, make_var no_float (registered []) true (set Pprotected (PB false) d) = Ok v).
Proof.
  split; [|split; [vm_compute; reflexivity|]].
  - set (d := [(Plocal_name, ps "q"); (Pstandard_name, ps "vapor"); (Punits, ps "kg kg-1"); (Pdimensions, PL []); (Ptype, ps "real"); (Padvected, ps "false")]).
    exists d. eexists. split; [do 5 right; now left|]. split; [|split; [vm_compute; reflexivity|reflexivity]].
    assert (ND : NoDup (map fst d)) by (apply nodup_text; reflexivity).
    assert (OD : ordinary d) by (split; [exact ND|]; split; [apply no_nl_text; reflexivity|]; intros n _; apply nonempty_text; reflexivity).
    apply C182_accepted; [exact OD| |apply get_none; reflexivity|eexists; vm_compute; reflexivity].
    intros (v & V & _). apply (get_given d _ _ ND) in V. discriminate.
  - exists [(Plocal_name, ps "q"); (Pstandard_name, ps "vapor"); (Punits, ps "kg kg-1"); (Pdimensions, PL []); (Ptype, ps "real"); (Pprotected, ps "false"); (Pintent, ps "out")].
    split; [do 5 right; now left|]. split; [do 6 right; now left|]. split; [vm_compute; reflexivity|]. eexists. vm_compute. reflexivity.
Qed.
Print Assumptions C183_false_text_refuted.

(* C184: adjusting the intent, and cloning *)
Lemma valid_ext fl names d d' : (forall n v, In n [Pprotected; Ptype; Pkind; Pdiagnostic_name; Pdiagnostic_name_fixed] -> given d n v <-> given d' n v) ->
  forall n v, valid fl names d n v -> valid fl names d' n v.
Proof.
  intros E n v V.
  assert (TX : forall m s, In m [Pprotected; Ptype; Pkind; Pdiagnostic_name; Pdiagnostic_name_fixed] -> text_of d m s -> text_of d' m s).
  { intros m s I [A|[A B]]; [left; now apply E|]. right. split; [exact A|]. intros t G. apply (B t). now apply E. }
  assert (GT : given_true d Pprotected -> given_true d' Pprotected) by (intros (w & W1 & W2); exists w; split; [apply E; [now left|exact W1]|exact W2]).
  destruct V.
  - now apply Va_local.
  - apply Va_constant with (t := t) (k := k); auto; apply TX; auto; cbv [In]; tauto.
  - now apply Va_standard.
  - now apply Va_units.
  - now apply Va_dimensions.
  - now apply Va_dimensions_text with (l := l).
  - now apply Va_type.
  - now apply Va_text.
  - now apply Va_bool_text.
  - now apply Va_bool.
  - now apply Va_no_diagnostic.
  - apply Va_diagnostic; auto. apply TX; auto; cbv [In]; tauto.
  - apply Va_fixed; auto. apply TX; auto; cbv [In]; tauto.
  - apply Va_default with (t := t) (k := k); auto; [apply E; auto; cbv [In]; tauto|apply TX; auto; cbv [In]; tauto].
  - now apply Va_persistence.
  - now apply Va_intent.
  - now apply Va_mass.
  - now apply Va_mass_text with (f := f).
  - now apply Va_mass_bool.
Qed.
Lemma valid_no_ext fl names d d' n v : (forall m w, In m [Pprotected; Ptype; Pkind; Pdiagnostic_name; Pdiagnostic_name_fixed] -> given d m w <-> given d' m w) -> valid fl names d n v <-> valid fl names d' n v.
Proof. intros E. split; apply valid_ext; intros m w I; [|symmetry]; now apply E. Qed.
Definition an_intent (v : pv) : Prop := v = ps "in" \/ v = ps "out" \/ v = ps "inout".
(* the intent after the adjustment: the given one, that of the source if there was none, inout if they differ *)
Theorem C184_adjust : forall (float_of : str -> option pyfloat) (names : list str) (scheme source_scheme : bool) (self src : dict) (wanted : pv),
  NoDup (map fst self) -> NoDup (map fst src) -> legal float_of names scheme self -> legal float_of names source_scheme src ->
  (given src Pintent wanted \/ (wanted = ps "in" /\ forall v, ~ given src Pintent v)) ->
  (given_true self Pprotected -> wanted <> ps "in" -> adjust_intent self src = Raise "CCPPError") /\
  (~ given_true self Pprotected \/ wanted = ps "in" -> exists d, adjust_intent self src = Ok d /\ NoDup (map fst d) /\ legal float_of names scheme d /\
    forall n v, given d n v <-> match n with
      | Pintent => (given self Pintent v /\ v = wanted) \/ (v = wanted /\ forall w, ~ given self Pintent w) \/ (v = ps "inout" /\ exists w, given self Pintent w /\ w <> wanted)
      | _ => given self n v end).
Proof.
  intros fl names scheme sscheme self src wanted N NS LS LR W.
  assert (WI : an_intent wanted).
  { destruct W as [W|[-> _]]; [|now left]. destruct LR as (V & _). apply (intent_valid fl names src). now apply V. }
  assert (SV : (match get_prop_value src Pintent with Some v => if truthy v then v else PS (L "in") | None => PS (L "in") end) = wanted).
  { unfold get_prop_value. destruct W as [W|[-> W]].
    - rewrite (proj2 (get_given src _ _ NS) W). destruct WI as [-> |[-> | ->]]; reflexivity.
    - rewrite (proj2 (get_none src _) W). reflexivity. }
  assert (PR : (match get_prop_value self Pprotected with Some v => truthy v | None => false end) = true <-> given_true self Pprotected).
  { rewrite <- (true_at_iff self _ N). unfold get_prop_value, true_at. destruct (get Pprotected self); reflexivity. }
  unfold adjust_intent. rewrite SV.
  assert (CH : (match wanted with PS s => mem_str s [L "inout"; L "out"] | _ => false end) = true <-> wanted <> ps "in").
  { destruct WI as [-> |[-> | ->]]; split; intros H; try reflexivity; try discriminate. now elim H. }
  split.
  - intros P NI. apply PR in P. apply CH in NI. rewrite P, NI. reflexivity.
  - intros OK. destruct ((match wanted with PS s => mem_str s [L "inout"; L "out"] | _ => false end) && (match get_prop_value self Pprotected with Some v => truthy v | None => false end)) eqn:T.
    { apply andb_true_iff in T as [T1 T2]. apply CH in T1. apply PR in T2. destruct OK; contradiction. }
    assert (MINE : forall x, given self Pintent x -> an_intent x) by (intros x G; destruct LS as (V & _); apply (intent_valid fl names self); now apply V).
    assert (LG : forall x, an_intent x -> (given_true self Pprotected -> x = ps "in") -> legal fl names scheme (set Pintent x self)).
    { intros x XI XP. destruct LS as (V & RQ & RI & PI).
      assert (EX : forall m w, m <> Pintent -> given self m w <-> given (set Pintent x self) m w) by (intros m w NE; rewrite given_set; tauto).
      split; [|split; [|split]].
      - intros n v G. apply given_set in G as [[-> ->]|[NE G]].
        + destruct XI as [-> |[-> | ->]]; apply Va_intent; auto.
        + apply (valid_ext fl names self); [|now apply V]. intros m w I. apply EX. intros ->. repeat (destruct I as [I|I]; [discriminate|]). destruct I.
      - intros n I. destruct (RQ n I) as (w & G). exists w. apply EX; [|exact G]. intros ->. repeat (destruct I as [I|I]; [discriminate|]). destruct I.
      - intros _. exists x. apply given_set. now left.
      - intros (w & W1 & W2) v G. apply given_set in G as [[_ ->]|[NE _]]; [|congruence]. apply XP. exists w. split; [|exact W2]. apply given_set in W1 as [[NE _]|[_ G]]; [discriminate|exact G]. }
    assert (WP : given_true self Pprotected -> wanted = ps "in") by (intros P; destruct OK; [contradiction|assumption]).
    destruct (get Pintent self) as [mine|] eqn:GM.
    + apply (get_given self _ _ N) in GM. assert (TM : truthy mine = true) by (destruct (MINE mine GM) as [-> |[-> | ->]]; reflexivity). rewrite TM.
      assert (DIFF : mine <> wanted -> exists d, Ok (set Pintent (PS (L "inout")) self) = Ok d /\ NoDup (map fst d) /\ legal fl names scheme d /\
        forall n v, given d n v <-> match n with
          | Pintent => (given self Pintent v /\ v = wanted) \/ (v = wanted /\ forall w, ~ given self Pintent w) \/ (v = ps "inout" /\ exists w, given self Pintent w /\ w <> wanted)
          | _ => given self n v end).
      { intros NE. eexists. split; [reflexivity|]. split; [now apply nodup_set|]. split.
        - apply LG; [right; now right|]. intros P. exfalso. apply NE. rewrite (WP P). destruct LS as (_ & _ & _ & PI). exact (PI P mine GM).
        - intros n v. rewrite given_set. destruct n; try (split; [intros [[A _]|[_ A]]; [discriminate|exact A]|intros A; right; split; [discriminate|exact A]]).
          split.
          + intros [[_ ->]|[A _]]; [|congruence]. right. right. split; [reflexivity|]. eauto.
          + intros [[A ->]|[[-> A]|[-> _]]]; [elim NE; exact (given_fun self _ _ _ N GM A)|elim (A _ GM)|now left]. }
      assert (SAME : mine = wanted -> exists d, Ok self = Ok d /\ NoDup (map fst d) /\ legal fl names scheme d /\
        forall n v, given d n v <-> match n with
          | Pintent => (given self Pintent v /\ v = wanted) \/ (v = wanted /\ forall w, ~ given self Pintent w) \/ (v = ps "inout" /\ exists w, given self Pintent w /\ w <> wanted)
          | _ => given self n v end).
      { intros ->. eexists. split; [reflexivity|]. split; [exact N|]. split; [exact LS|]. intros n v. destruct n; try reflexivity. split.
        - intros G. left. split; [exact G|]. exact (given_fun self _ _ _ N G GM).
        - intros [[A _]|[[-> _]|[_ (w & A & B)]]]; [exact A|exact GM|]. elim B. exact (given_fun self _ _ _ N A GM). }
      destruct (MINE mine GM) as [-> |[-> | ->]], WI as [-> |[-> | ->]]; unfold ps;
        match goal with |- context [str_eqb ?a ?b] => let r := eval vm_compute in (str_eqb a b) in change (str_eqb a b) with r end; cbv iota;
        first [apply SAME; reflexivity|apply DIFF; discriminate].
    + assert (NM := proj1 (get_none self _) GM). eexists. split; [reflexivity|]. split; [now apply nodup_set|]. split; [apply LG; auto|].
      intros n v. rewrite given_set. destruct n; try (split; [intros [[A _]|[_ A]]; [discriminate|exact A]|intros A; right; split; [discriminate|exact A]]).
      split.
      * intros [[_ ->]|[A _]]; [|congruence]. right. left. auto.
      * intros [[A _]|[[-> _]|[_ (w & A & _)]]]; [elim (NM _ A)|now left|elim (NM _ A)].
Qed.
Definition d2 : dict := del Pprotected d0.
Example C184_adjust_nonvacuous : legal no_float [] true d2 /\ legal no_float [] true (set Pintent (ps "out") d2) /\
  adjust_intent d2 (set Pintent (ps "out") d2) = Ok (set Pintent (ps "inout") d2) /\ adjust_intent (del Pintent d2) (set Pintent (ps "out") d2) = Ok (set Pintent (ps "out") (del Pintent d2)) /\
  adjust_intent d0 (set Pintent (ps "out") d2) = Raise "CCPPError" /\ adjust_intent (set Pintent (ps "inout") d2) (set Pintent (ps "out") d2) = Ok (set Pintent (ps "inout") d2).
Proof.
  assert (LG : forall i, (i = ps "in" \/ i = ps "out") -> legal no_float [] true (set Pintent i d2)).
  { intros i I. assert (OD : ordinary (set Pintent i d2)) by (destruct I as [-> | ->]; (split; [apply nodup_text; reflexivity|]; split; [apply no_nl_text; reflexivity|]; intros n _; apply nonempty_text; reflexivity)).
    apply C182_accepted; [exact OD| |apply get_none; destruct I as [-> | ->]; reflexivity|destruct I as [-> | ->]; eexists; vm_compute; reflexivity].
    intros (v & V & _). apply (get_given _ _ _ (proj1 OD)) in V. destruct I as [-> | ->]; discriminate. }
  split; [exact (LG (ps "in") (or_introl eq_refl))|]. split; [apply LG; now right|]. repeat split; vm_compute; reflexivity.
Qed.
Print Assumptions C184_adjust.

Lemma set_same n v d : NoDup (map fst d) -> given d n v -> set n v d = d.
Proof.
  intros N G. unfold set. assert (H : has n d = true) by (apply has_given; eauto). rewrite H. rewrite <- (map_id d) at 2. apply map_ext_in.
  intros [k w] I. cbn [fst]. destruct (prop_dec k n) as [->|]; [|reflexivity]. now rewrite (given_fun d n v w N G I).
Qed.
Lemma del_absent n d : (forall v, ~ given d n v) -> del n d = d.
Proof.
  unfold del, given. induction d as [|[k w] d IH]; intros H; [reflexivity|]. cbn [List.filter fst]. destruct (prop_dec k n) as [->|]; [elim (H w); now left|].
  rewrite IH; [reflexivity|]. intros v I. apply (H v). now right.
Qed.
Lemma get_app n a b : get n (a ++ b) = match get n a with Some v => Some v | None => get n b end.
Proof. unfold get. induction a as [|[k w] a IH]; [reflexivity|]. cbn [app List.find fst]. destruct (prop_dec k n); [reflexivity|exact IH]. Qed.
Lemma has_app n a b : has n (a ++ b) = has n a || has n b.
Proof. unfold has. rewrite get_app. destruct (get n a); reflexivity. Qed.
(* a clone without changes is the variable itself: of a type of the language, and of a derived type that was created from its name *)
Theorem C184_clone : forall (float_of : str -> option pyfloat) (names : list str) (scheme : bool) (d : dict) (v : var), NoDup (map fst d) ->
  (forall t w, given d Pddt_type t -> given d Ptype w -> w = t) -> make_var float_of (registered names) scheme d = Ok v -> clone float_of (registered names) scheme v [] false = Ok v.
Proof.
  intros fl names scheme d v N H M. unfold clone, copy_prop_dict. cbn [fold_left].
  destruct (get Pddt_type d) as [t|] eqn:G.
  - apply (get_given d _ _ N) in G. destruct (C182_ddt fl names scheme d t N G) as (e & NE & GE & MK & _).
    destruct (MK v M) as [PV DV]. rewrite DV, PV.
    assert (GK : given e Pkind t) by now apply GE. assert (GT : given e Ptype t).
    { apply GE. destruct (get Ptype d) as [w|] eqn:GW; [apply (get_given d _ _ N) in GW; left; now rewrite <- (H t w G GW)|right; split; [reflexivity|now apply get_none]]. }
    assert (HU : has Punits e = true).
    { apply has_given. destruct (get Punits d) as [u|] eqn:GU; [apply (get_given d _ _ N) in GU; exists u; apply GE; now left|exists (PS []); apply GE; right; split; [reflexivity|now apply get_none]]. }
    assert (ND : forall w, ~ given e Pddt_type w) by (intros w W; now apply GE in W).
    rewrite (proj2 (get_given e _ _ NE) GT). cbn [bind].
    assert (SE : set Pddt_type t e = e ++ [(Pddt_type, t)]).
    { unfold set. destruct (has Pddt_type e) eqn:X; [|reflexivity]. apply has_given in X as (w & W). elim (ND w W). }
    assert (RU : ddt_rules (set Pddt_type t e) = (e, true)).
    { unfold ddt_rules. rewrite (proj2 (get_given (set Pddt_type t e) Pddt_type t (nodup_set _ _ _ NE))) by (apply given_set; now left).
      rewrite SE. rewrite !has_app. assert (HT : has Ptype e = true) by (apply has_given; eauto). rewrite HT. cbn [orb]. rewrite has_app, HU. cbn [orb]. rewrite <- SE.
      rewrite set_same; [|now apply nodup_set|apply given_set; right; split; [discriminate|exact GK]].
      rewrite SE. unfold del. rewrite filter_app. fold (del Pddt_type e). rewrite (del_absent _ _ ND). cbn. now rewrite app_nil_r. }
    rewrite make_built, RU. cbn [fst snd]. rewrite make_built in M. destruct (built_inv _ _ _ _ _ _ M) as (A & B & C).
    rewrite <- A, PV in M. rewrite <- B, DV in M. exact M.
  - assert (NT := proj1 (get_none d _) G). assert (RU : ddt_rules d = (d, false)) by (unfold ddt_rules; now rewrite G).
    assert (M' := M). rewrite make_built, RU in M'. cbn [fst snd] in M'. destruct (built_inv _ _ _ _ _ _ M') as (A & B & C). rewrite A, B. cbn [bind]. exact M.
Qed.
Example C184_clone_nonvacuous : exists v w, make_var no_float (registered [L "ty_phys"]) false d1 = Ok v /\ clone no_float (registered [L "ty_phys"]) false v [] false = Ok v /\
  make_var no_float (registered []) true d0 = Ok w /\ clone no_float (registered []) true w [] false = Ok w /\ v_ddt v = true /\ v_constituent w = true /\
  (forall t u, given d1 Pddt_type t -> given d1 Ptype u -> u = t).
Proof.
  eexists. eexists. split; [vm_compute; reflexivity|]. split; [vm_compute; reflexivity|]. split; [vm_compute; reflexivity|]. split; [vm_compute; reflexivity|]. split; [reflexivity|]. split; [reflexivity|].
  intros t u _ U. repeat (destruct U as [U|U]; [discriminate|]). destruct U.
Qed.
Print Assumptions C184_clone.
(* a clone with another local name: accepted exactly if the name is a variable or an array reference; the other properties are those of the variable *)
Theorem C184_renamed : forall (float_of : str -> option pyfloat) (names : list str) (scheme : bool) (d : dict) (v : var) (s : str), ordinary d -> (forall t, ~ given d Pddt_type t) -> ~ given_true d Pprotected ->
  make_var float_of (registered names) scheme d = Ok v -> s <> [] -> ~ ends_nl s ->
  ((exists w, clone float_of (registered names) scheme v [(Plocal_name, PS s)] false = Ok w) <-> reference 0 s) /\
  (forall w, clone float_of (registered names) scheme v [(Plocal_name, PS s)] false = Ok w -> v_ddt w = false /\ v_constituent w = v_constituent v /\
    forall n x, given (v_props w) n x <-> (n = Plocal_name /\ x = PS s) \/ (n <> Plocal_name /\ given d n x)).
Proof.
  intros fl names scheme d v s OD NT NP M S0 SN. assert (ND := proj1 OD).
  assert (G : get Pddt_type d = None) by now apply get_none. assert (RU : ddt_rules d = (d, false)) by (unfold ddt_rules; now rewrite G).
  assert (M' := M). rewrite make_built, RU in M'. cbn [fst snd] in M'. destruct (built_inv _ _ _ _ _ _ M') as (A & B & C).
  unfold clone, copy_prop_dict. cbn [fold_left fst snd]. rewrite A, B. cbn [bind]. set (e := set Plocal_name (PS s) d).
  assert (EX : forall m w, m <> Plocal_name -> given d m w <-> given e m w) by (intros m w NE; unfold e; rewrite given_set; tauto).
  assert (NE : NoDup (map fst e)) by now apply nodup_set.
  assert (NPE : ~ given_true e Pprotected) by (intros (w & W1 & W2); apply NP; exists w; split; [apply EX; [discriminate|exact W1]|exact W2]).
  assert (OE : ordinary e).
  { destruct OD as (_ & O1 & O2). split; [exact NE|]. split.
    - intros n t I. apply given_set in I as [[_ E]|[_ I]]; [injection E as ->; exact SN|eauto].
    - intros n I J. apply given_set in J as [[_ E]|[_ J]]; [injection E as E; congruence|exact (O2 n I J)]. }
  assert (NTE : forall t, ~ given e Pddt_type t) by (intros t I; apply EX in I; [exact (NT t I)|discriminate]).
  assert (LD : legal fl names scheme d) by (apply C182_accepted; eauto; intros P; contradiction).
  assert (LE : (exists w, make_var fl (registered names) scheme e = Ok w) <-> legal fl names scheme e) by (apply C182_accepted; auto; intros P; contradiction).
  assert (VE : forall n x, valid fl names d n x <-> valid fl names e n x).
  { intros n x. apply valid_no_ext. intros m w I. apply EX. intros ->. repeat (destruct I as [I|I]; [discriminate|]). destruct I. }
  destruct LD as (V & RQ & RI & PI). split.
  - rewrite LE. split.
    + intros (V2 & _). specialize (V2 Plocal_name (PS s)). assert (X : valid fl names e Plocal_name (PS s)) by (apply V2, given_set; now left).
      inversion X; subst; try kill; auto. contradiction.
    + intros R. split; [|split; [|split]].
      * intros n x I. apply given_set in I as [[-> ->]|[NL I]]; [now apply Va_local|]. apply VE. now apply V.
      * intros n I. destruct (prop_dec n Plocal_name) as [->|NL]; [exists (PS s); apply given_set; now left|]. destruct (RQ n I) as (w & W). exists w. now apply EX.
      * intros S. destruct (RI S) as (w & W). exists w. apply EX; [discriminate|exact W].
      * intros P. contradiction.
  - intros w W. assert (RUE : ddt_rules e = (e, false)) by (unfold ddt_rules; now rewrite (proj2 (get_none e _) NTE)).
    rewrite make_built, RUE in W. cbn [fst snd] in W. destruct (built_inv _ _ _ _ _ _ W) as (A2 & B2 & C2). rewrite A2, B2, C2, C. split; [reflexivity|]. split.
    + assert (CA : forall n, n <> Plocal_name -> constituent_at n e = constituent_at n d).
      { intros n NL. unfold constituent_at. destruct (get n d) as [x|] eqn:GX.
        - apply (get_given d _ _ ND) in GX. now rewrite (proj2 (get_given e n x NE) (proj1 (EX n x NL) GX)).
        - rewrite (proj2 (get_none e n)); [reflexivity|]. intros x X. apply (EX n x NL) in X. exact (proj1 (get_none d n) GX x X). }
      rewrite !CA by discriminate. reflexivity.
    + intros n x. apply given_set.
Qed.
Example C184_renamed_nonvacuous : exists v, ordinary d2 /\ ~ given_true d2 Pprotected /\ make_var no_float (registered []) true d2 = Ok v /\
  (exists w, clone no_float (registered []) true v [(Plocal_name, ps "tmp(:)")] false = Ok w) /\ clone no_float (registered []) true v [(Plocal_name, ps "3tmp")] false = Raise "ParseSyntaxError".
Proof.
  eexists. split; [split; [apply nodup_text; reflexivity|]; split; [apply no_nl_text; reflexivity|]; intros n _; apply nonempty_text; reflexivity|]. split.
  - intros (v & V & _). repeat (destruct V as [V|V]; [discriminate|]). destruct V.
  - split; [vm_compute; reflexivity|]. split; [eexists; vm_compute; reflexivity|vm_compute; reflexivity].
Qed.
Print Assumptions C184_renamed.
(* a variable of a scheme can be promoted to a module: the clone without intent has the other properties, is accepted in a host and refused in a scheme *)
Theorem C184_promoted : forall (float_of : str -> option pyfloat) (names : list str) (scheme : bool) (d : dict) (v : var), ordinary d -> decided d -> (forall t, ~ given d Pddt_type t) ->
  make_var float_of (registered names) scheme d = Ok v ->
  (exists w, clone float_of (registered names) false v [] true = Ok w /\ forall n x, given (v_props w) n x <-> n <> Pintent /\ given d n x) /\
  (forall w, clone float_of (registered names) true v [] true <> Ok w).
Proof.
  intros fl names scheme d v OD DD NT M. assert (ND := proj1 OD).
  assert (G : get Pddt_type d = None) by now apply get_none. assert (RU : ddt_rules d = (d, false)) by (unfold ddt_rules; now rewrite G).
  assert (M' := M). rewrite make_built, RU in M'. cbn [fst snd] in M'. destruct (built_inv _ _ _ _ _ _ M') as (A & B & C).
  unfold clone, copy_prop_dict. cbn [fold_left fst snd]. rewrite A, B. cbn [bind]. set (e := del Pintent d).
  assert (EX : forall m w, m <> Pintent -> given d m w <-> given e m w) by (intros m w NE; unfold e; rewrite given_del; tauto).
  assert (NE : NoDup (map fst e)) by now apply nodup_del.
  assert (SUB : forall m w, given e m w -> given d m w) by (intros m w I; now apply given_del in I).
  assert (TX : forall m s, m <> Pintent -> text_of e m s -> text_of d m s).
  { intros m s NI [X|[X Y]]; [left; auto|]. right. split; [exact X|]. intros t I. apply (Y t). now apply EX. }
  assert (OE : ordinary e).
  { destruct OD as (_ & O1 & O2). split; [exact NE|]. split; [intros n s I; exact (O1 n s (SUB _ _ I))|intros n I J; exact (O2 n I (SUB _ _ J))]. }
  assert (DE : decided e).
  { intros (w & W1 & W2) s t k I T K T0. apply (DD (ex_intro _ w (conj (SUB _ _ W1) W2)) s t k); auto; apply TX; auto; discriminate. }
  assert (NTE : forall t, ~ given e Pddt_type t) by (intros t I; exact (NT t (SUB _ _ I))).
  assert (LD : legal fl names scheme d) by (apply C182_accepted; eauto). destruct LD as (V & RQ & RI & PI).
  assert (RUE : ddt_rules e = (e, false)) by (unfold ddt_rules; now rewrite (proj2 (get_none e _) NTE)).
  split.
  - assert (LE : legal fl names false e).
    { split; [|split; [|split; [discriminate|]]].
      - intros n x I. apply (valid_no_ext fl names d e); [|apply V; auto]. intros m w J. apply EX. intros ->. repeat (destruct J as [J|J]; [discriminate|]). destruct J.
      - intros n I. destruct (RQ n I) as (w & W). exists w. apply EX; [|exact W]. intros ->. repeat (destruct I as [I|I]; [discriminate|]). destruct I.
      - intros _ x I. apply given_del in I as [I _]. congruence. }
    destruct (proj2 (C182_accepted fl names false e OE DE NTE) LE) as (w & W). exists w. split; [exact W|].
    rewrite make_built, RUE in W. cbn [fst snd] in W. destruct (built_inv _ _ _ _ _ _ W) as (A2 & _). rewrite A2. intros n x. apply given_del.
  - intros w W. assert (LE : legal fl names true e) by (apply C182_accepted; eauto). destruct LE as (_ & _ & I & _). destruct (I eq_refl) as (x & X). apply given_del in X as [X _]. congruence.
Qed.
Example C184_promoted_nonvacuous : exists v w, make_var no_float (registered []) true d0 = Ok v /\ clone no_float (registered []) false v [] true = Ok w /\ v_props w = del Pintent d0 /\ has Pintent d0 = true.
Proof. eexists. eexists. split; [vm_compute; reflexivity|]. split; [vm_compute; reflexivity|]. split; reflexivity. Qed.
Print Assumptions C184_promoted.
(* a variable of a derived type that was created with another type: its clone has another kind *)
Theorem C184_ddt_kind_refuted : exists d v w, NoDup (map fst d) /\ make_var no_float (registered [L "ty_a"; L "ty_b"]) false d = Ok v /\ clone no_float (registered [L "ty_a"; L "ty_b"]) false v [] false = Ok w /\
  given (v_props v) Pkind (ps "ty_a") /\ given (v_props w) Pkind (ps "ty_b").
Proof.
  exists [(Plocal_name, ps "phys"); (Pstandard_name, ps "physics_state"); (Pdimensions, PL []); (Pddt_type, ps "ty_a"); (Ptype, ps "ty_b")].
  eexists. eexists. split; [apply nodup_text; reflexivity|]. split; [vm_compute; reflexivity|]. split; [vm_compute; reflexivity|].
  split; apply get_in; vm_compute; reflexivity.
Qed.
Print Assumptions C184_ddt_kind_refuted.
