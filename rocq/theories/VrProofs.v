(* VrProofs.v: descriptions of variables. *)
From Coq Require Import List Ascii String ZArith Bool Lia.
From Verif Require Import PyStr Base Regex PhaseModel PhaseSpec PhaseProofs PhaseProps CheckModel CheckSpec CheckProofs LitProofs CheckProps ArProofs VrModel VrSpec.
Import ListNotations.
Open Scope nat_scope. Open Scope list_scope.

(* ---- dictionaries ---- *)
Lemma get_in n d v : get n d = Some v -> given d n v.
Proof.
  unfold get, given. destruct (List.find _ d) as [[m w]|] eqn:F; [|discriminate]. apply List.find_some in F as [I E]. cbn in E.
  destruct (prop_dec m n) as [->|]; [|discriminate]. intros H. injection H as ->. exact I.
Qed.
Lemma get_given d n v : NoDup (map fst d) -> get n d = Some v <-> given d n v.
Proof.
  intros N. split; [apply get_in|]. unfold get, given. induction d as [|[m w] d IH]; [intros []|]. cbn [map fst] in N. inversion N as [|? ? N1 N2]; subst.
  cbn [List.find fst]. intros [E|I].
  - injection E as -> ->. destruct (prop_dec n n); [reflexivity|congruence].
  - destruct (prop_dec m n) as [->|]; [|now apply IH]. elim N1. apply in_map_iff. exists (n, v). auto.
Qed.
Lemma get_none d n : get n d = None <-> forall v, ~ given d n v.
Proof.
  unfold get, given. induction d as [|[m w] d IH]; cbn [List.find fst]; [split; [intros _ v []|auto]|]. destruct (prop_dec m n) as [->|NE].
  - split; [discriminate|]. intros H. elim (H w). now left.
  - rewrite IH. split; intros H v; [intros [E|I]; [injection E as -> ->; congruence|exact (H v I)]|]. intros I. apply (H v). now right.
Qed.
Lemma has_given d n : has n d = true <-> exists v, given d n v.
Proof.
  unfold has. destruct (get n d) as [v|] eqn:G; split; intros H; auto; [exists v; now apply get_in|discriminate|]. destruct H as (v & H). elim (proj1 (get_none d n) G v H).
Qed.
Lemma given_fun d n v w : NoDup (map fst d) -> given d n v -> given d n w -> v = w.
Proof. intros N A B. apply (get_given d n v N) in A. apply (get_given d n w N) in B. congruence. Qed.
Lemma truthy_iff v : truthy v = true <-> true_value v.
Proof.
  destruct v as [s|b|l|f]; cbn [truthy]; split; intros H.
  - constructor. intros ->. discriminate.
  - inversion H; subst. destruct s; [congruence|reflexivity].
  - subst. constructor.
  - now inversion H.
  - constructor. intros ->. discriminate.
  - inversion H; subst. destruct l; [congruence|reflexivity].
  - constructor. now apply negb_true_iff.
  - inversion H; subst. now apply negb_true_iff.
Qed.
Lemma true_at_iff d n : NoDup (map fst d) -> true_at n d = true <-> given_true d n.
Proof.
  intros N. unfold true_at, given_true. destruct (get n d) as [v|] eqn:G.
  - rewrite truthy_iff. apply (get_given d n v N) in G. split; [eauto|]. intros (w & A & B). now rewrite (given_fun d n v w N G A).
  - split; [discriminate|]. intros (w & A & _). elim (proj1 (get_none d n) G w A).
Qed.
Lemma text_of_iff d n s : NoDup (map fst d) -> text_of d n s <-> str_at n d = s.
Proof.
  intros N. unfold text_of, str_at. destruct (get n d) as [[t|b|l|f]|] eqn:G.
  - apply (get_given d n _ N) in G. split; [intros [A|[_ A]]; [|elim (A t G)]; assert (X := given_fun d n _ _ N G A); congruence|intros <-; now left].
  - split; [intros [A|[A _]]; [apply (get_given d n _ N) in A; congruence|auto]|]. intros <-. right. split; [reflexivity|]. intros t A. apply (get_given d n _ N) in A. congruence.
  - split; [intros [A|[A _]]; [apply (get_given d n _ N) in A; congruence|auto]|]. intros <-. right. split; [reflexivity|]. intros t A. apply (get_given d n _ N) in A. congruence.
  - split; [intros [A|[A _]]; [apply (get_given d n _ N) in A; congruence|auto]|]. intros <-. right. split; [reflexivity|]. intros t A. apply (get_given d n _ N) in A. congruence.
  - split; [intros [A|[A _]]; [apply (get_given d n _ N) in A; congruence|auto]|]. intros <-. right. split; [reflexivity|]. intros t A. apply (get_given d n _ N) in A. congruence.
Qed.

(* ---- decidable descriptions ---- *)
Lemma name_dec s : ~ ends_nl s -> fortran_name s \/ ~ fortran_name s.
Proof. intros N. rewrite <- (id_dollar s N). destruct (re_dollar fortran_id_re s); intuition discriminate. Qed.
Lemma reference0 s : reference 0 s <-> fortran_name s \/ exists name dims, array_ref s name dims.
Proof.
  unfold reference. split.
  - intros [[A _]|(n & l & A & _)]; eauto.
  - intros [A|(n & l & A)]; [left; split; [exact A|now left]|]. right. exists n, l. split; [exact A|]. apply Forall_forall. intros x _. now left.
Qed.
Lemma ref_dec s : ~ ends_nl s -> reference 0 s \/ ~ reference 0 s.
Proof.
  intros N. rewrite reference0, <- scalar_ref_spec, <- (dollar_no_nl scalar_ref_re s N), <- (id_dollar s N). destruct (re_dollar fortran_id_re s), (re_dollar scalar_ref_re s); intuition discriminate.
Qed.
Lemma unit_dec s : unit_string (strip s) \/ ~ unit_string (strip s).
Proof.
  assert (U : re_dollar units_re (strip s) = true <-> unit_string (strip s)).
  { rewrite dollar_no_nl by apply strip_no_nl. unfold units_re, unit_string. rewrite !in_alt, char_under_spec, unit_list_spec, in_ch. tauto. }
  rewrite <- U. destruct (re_dollar units_re (strip s)); intuition discriminate.
Qed.
Lemma type_dec names s : (type_text s \/ In s names) \/ ~ (type_text s \/ In s names).
Proof.
  assert (T : type_text s \/ ~ type_text s).
  { rewrite <- intrinsic_test. match goal with |- ?b = true \/ _ => destruct b end; intuition discriminate. }
  destruct T as [T|T]; [tauto|]. destruct (in_dec (list_eq_dec ascii_dec) s names); tauto.
Qed.
Lemma diag_dec s : ~ ends_nl s -> diag_name s \/ ~ diag_name s.
Proof. intros N. rewrite <- diag_spec, <- (dollar_no_nl diag_re s N). destruct (re_dollar diag_re s); intuition discriminate. Qed.
Lemma checks_ok r P v : checks r P v -> P \/ ~ P -> (exists o, r true = Ok o) <-> P.
Proof.
  intros [A B] [D|D]; [split; [auto|]; intros _; exists (Some v); now apply A|]. split; [|contradiction]. intros (o & E). destruct (B D) as [(m & M) _]. congruence.
Qed.
Lemma as_ps_ok r : (exists o, as_ps r = Ok o) <-> exists o, r = Ok o.
Proof. unfold as_ps. destruct r as [o|m]; cbn [bind]; split; intros (x & E); eauto; discriminate. Qed.

(* ---- one value ---- *)
Definition accepts (fl : str -> option pyfloat) (names : list str) (d : dict) (n : prop) (v : pv) : Prop :=
  exists o, valid_value fl (registered names) (Some d) n v true = Ok o.
Lemma accepts_bool fl names d n v : prop_type n = Some TBool -> bool_prop n -> accepts fl names d n v <-> valid fl names d n v.
Proof.
  intros T B. unfold accepts, valid_value. rewrite T.
  assert (CK : forall w, check (registered names) (Some d) n (PB w) true = Ok (Some (PB w))) by (intros w; destruct n; try discriminate; reflexivity).
  destruct v as [s|b|l|f]; cbn [convert bind].
  - destruct (mem_str (lower s) (true_vals ++ false_vals)) eqn:M.
    + split; [intros _|intros _; destruct (truthy _); [rewrite CK|]; eauto]. apply Va_bool_text; [exact B|]. apply existsb_exists in M as (x & I & E). apply str_eqb_eq in E. rewrite E. cbn in I |- *. tauto.
    + split; [intros (o & E); discriminate|]. intros V. exfalso. inversion V; subst; try (repeat (destruct B as [B|B]; try discriminate); fail).
      all: try (match goal with H : _ = Pdiagnostic_name \/ _ |- _ => destruct H as [->|[->| ->]]; discriminate end); try discriminate.
      * match goal with H : text_prop _ |- _ => destruct H as [<-|[<-|[<-|[]]]]; discriminate end.
      * match goal with H : In (lower s) _ |- _ => rename H into I end. assert (X : mem_str (lower s) (true_vals ++ false_vals) = true); [|congruence].
        apply existsb_exists. exists (lower s). split; [exact I|apply str_eqb_refl].
      * match goal with H : forall t, PS s <> PS t |- _ => now elim (H s) end.
  - split; [intros _; apply Va_bool; [exact B|discriminate]|]. intros _. destruct (truthy _); [rewrite CK|]; eauto.
  - split; [intros _; apply Va_bool; [exact B|discriminate]|]. intros _. destruct (truthy _); [rewrite CK|]; eauto.
  - split; [intros _; apply Va_bool; [exact B|discriminate]|]. intros _. destruct (truthy _); [rewrite CK|]; eauto.
Qed.
Ltac kill := match goal with
  | H : _ = Pdiagnostic_name \/ _ |- _ => destruct H as [H|[H|H]]; try discriminate
  | H : text_prop _ |- _ => destruct H as [H|[H|[H|[]]]]; discriminate
  | H : bool_prop _ |- _ => destruct H as [H|[H|[H|[H|[H|[H|[H|[H|[H|[]]]]]]]]]]; discriminate
  end.
Lemma acc_text fl names d n s : prop_type n = Some (TStr None) -> (forall w, check (registered names) (Some d) n w true = Ok (Some w)) -> accepts fl names d n (PS s).
Proof. intros T C. unfold accepts, valid_value. rewrite T. cbn [convert bind]. destruct (truthy (PS s)); [rewrite C|]; eauto. Qed.
Lemma acc_no_text fl names d n v : prop_type n = Some (TStr None) -> (forall s, v <> PS s) -> ~ accepts fl names d n v.
Proof. intros T C (o & H). unfold valid_value in H. rewrite T in H. destruct v as [s|b|l|f]; cbn in H; try discriminate. now elim (C s). Qed.
Lemma acc_str fl names d n s : prop_type n = Some (TStr None) -> s <> [] -> accepts fl names d n (PS s) <-> exists o, check (registered names) (Some d) n (PS s) true = Ok o.
Proof. intros T NE. unfold accepts, valid_value. rewrite T. cbn [convert bind truthy]. destruct s; [congruence|]. reflexivity. Qed.
Lemma valid_value_iff fl names d n v : ordinary d -> decided d -> given d n v -> (exists t, prop_type n = Some t) -> accepts fl names d n v <-> valid fl names d n v.
Proof.
  intros (ND & NL & NE) DD G (ty & T).
  assert (NLv : forall s, v = PS s -> ~ ends_nl s) by (intros s ->; eauto).
  assert (NEn : In n [Plocal_name; Pstandard_name; Ptype] -> v <> PS []) by (intros I ->; exact (NE n I G)).
  assert (STR : prop_type n = Some (TStr None) -> (forall s, v <> PS s) -> accepts fl names d n v <-> valid fl names d n v).
  { intros T2 NS. split; [intros A; elim (acc_no_text fl names d n v T2 NS A)|]. intros V. exfalso.
    inversion V; subst; try (match goal with H : forall s, PS ?x <> PS s |- _ => now elim (H x) end); try discriminate.
    match goal with H : bool_prop _ |- _ => destruct H as [<-|[<-|[<-|[<-|[<-|[<-|[<-|[<-|[<-|[]]]]]]]]]]; discriminate end. }
  destruct n; try discriminate T; try (apply accepts_bool; [reflexivity|cbv [bool_prop In]; tauto]).
  - (* local_name *) destruct v as [s|b|l|f]; try (apply STR; [reflexivity|discriminate]).
    assert (S0 : s <> []) by (intros ->; apply NEn; [now left|reflexivity]). rewrite acc_str by auto. cbn [check]. rewrite as_ps_ok.
    pose proof (ref_dec s (NLv s eq_refl)) as DEC.
    assert (R0 := checks_ok _ _ _ (C54_reference s 0 (NLv s eq_refl)) DEC). cbv beta in R0.
    unfold check_local_name. destruct (true_at Pprotected d && negb (is_nil (str_at Ptype d))) eqn:PT.
    + apply andb_true_iff in PT as [PT TN]. apply (true_at_iff d _ ND) in PT.
      assert (TN' : str_at Ptype d <> []) by (intros E; rewrite E in TN; discriminate).
      destruct (DD PT s (str_at Ptype d) (str_at Pkind d) G) as (b & LI); auto; try (now apply (text_of_iff d _ _ ND)). rewrite LI. destruct b; cbn [bind].
      * split; [intros _|eauto]. apply Va_constant with (t := str_at Ptype d) (k := str_at Pkind d); auto; now apply (text_of_iff d _ _ ND).
      * rewrite R0. split; [apply Va_local|]. intros V. inversion V; subst; try kill; auto. exfalso.
        match goal with H : text_of d Ptype _ |- _ => apply (text_of_iff d _ _ ND) in H; subst end. match goal with H : text_of d Pkind _ |- _ => apply (text_of_iff d _ _ ND) in H; subst end. unfold literal in *. congruence.
    + cbn [bind]. rewrite R0. split; [apply Va_local|]. intros V. inversion V; subst; try kill; auto. exfalso.
      match goal with H : given_true d Pprotected |- _ => apply (true_at_iff d _ ND) in H; rewrite H in PT end.
      match goal with H : text_of d Ptype _ |- _ => apply (text_of_iff d _ _ ND) in H; subst end. destruct (str_at Ptype d); [congruence|discriminate].
  - (* standard_name *) destruct v as [s|b|l|f]; try (apply STR; [reflexivity|discriminate]).
    assert (S0 : s <> []) by (intros ->; apply NEn; [right; now left|reflexivity]). rewrite acc_str by auto. cbn [check]. rewrite as_ps_ok.
    destruct (C20_standard_name s (NLv s eq_refl) S0) as [CK _]. rewrite (checks_ok _ _ _ CK (name_dec s (NLv s eq_refl))).
    split; [apply Va_standard|]. intros V. inversion V; subst; try kill; auto.
  - (* long_name *) destruct v as [s|b|l|f]; try (apply STR; [reflexivity|discriminate]).
    split; [intros _; apply Va_text; now left|]. intros _. apply acc_text; [reflexivity|]. intros []; reflexivity.
  - (* units *) destruct v as [s|b|l|f]; try (apply STR; [reflexivity|discriminate]).
    destruct (list_eq_dec ascii_dec s []) as [->|S0]; [split; [intros _; apply Va_units; now left|intros _; unfold accepts, valid_value; cbn; eauto]|].
    rewrite acc_str by auto. cbn [check]. rewrite as_ps_ok. rewrite (checks_ok _ _ _ (C55_units s) (unit_dec s)).
    split; [intros U; apply Va_units; now right|]. intros V. inversion V; subst; try kill. match goal with H : _ \/ _ |- _ => destruct H; [contradiction|auto] end.
  - (* dimensions *)
    assert (DL : forall l, (exists o, (if truthy (PL l) then check (registered names) (Some d) Pdimensions (PL l) true else Ok (Some (PL l))) = Ok o) <-> Forall (dim_ok 0) l).
    { intros l. destruct (C58_dimensions l 0) as [D1 D2]. destruct l as [|x l']; cbn [truthy]; [split; [constructor|eauto]|]. cbn [check]. split.
      - intros (o & E). apply bind_inv in E as (r & E & _). assert (OKL : check_dimensions (x :: l') true 0 = Ok (Some (x :: l'))); [|now apply D1].
        unfold check_dimensions in E |- *. destruct (loop_true 0 (x :: l') true) as [Q|(m & Q)]; rewrite Q in E |- *; [reflexivity|discriminate].
      - intros F. apply D1 in F. rewrite F. cbn [bind]. eauto. }
    unfold accepts, valid_value. cbn [prop_type]. destruct v as [s|b|l|f]; cbn [convert].
    + destruct (fortran_list_match s) as [[l|]|m] eqn:LM; cbn [bind].
      * assert (CV : (match l with [[]] => Some (PL []) | l0 => Some (PL l0) end) = Some (PL (match l with [[]] => [] | l0 => l0 end))) by (destruct l as [|[|] [|]]; reflexivity).
        rewrite CV. rewrite DL. split.
        -- intros F. apply Va_dimensions_text with (l := l); [exact LM|]. destruct l as [|[|] [|]]; auto.
        -- intros V. inversion V; subst; try kill. match goal with H : fortran_list_match s = Ok (Some ?k) |- _ => rewrite LM in H; apply Ok_inj in H; injection H as -> end.
           match goal with H : _ \/ _ |- _ => destruct H as [-> |H]; [constructor|] end. destruct l0 as [|[|] [|]]; auto.
      * split; [intros (o & E); discriminate|]. intros V. inversion V; subst; try kill. congruence.
      * split; [intros (o & E); discriminate|]. intros V. inversion V; subst; try kill. congruence.
    + split; [intros (o & E); discriminate|]. intros V. inversion V; subst; kill.
    + cbn [bind]. rewrite DL. split; [apply Va_dimensions|]. intros V. inversion V; subst; try kill. auto.
    + split; [intros (o & E); discriminate|]. intros V. inversion V; subst; kill.
  - (* type *) destruct v as [s|b|l|f]; try (apply STR; [reflexivity|discriminate]).
    assert (S0 : s <> []) by (intros ->; apply NEn; [right; right; now left|reflexivity]). rewrite acc_str by auto. cbn [check]. rewrite as_ps_ok.
    rewrite (checks_ok _ _ _ (C60_type names s) (type_dec names s)). split; [apply Va_type|]. intros V. inversion V; subst; try kill; auto.
  - (* kind *) destruct v as [s|b|l|f]; try (apply STR; [reflexivity|discriminate]).
    split; [intros _; apply Va_text; right; now left|]. intros _. apply acc_text; [reflexivity|]. intros []; reflexivity.
  - (* diagnostic_name *) destruct v as [s|b|l|f]; try (apply STR; [reflexivity|discriminate]).
    destruct (list_eq_dec ascii_dec s []) as [->|S0]; [split; [intros _; apply Va_no_diagnostic; auto|intros _; unfold accepts, valid_value; cbn; eauto]|].
    rewrite acc_str by auto. cbn [check]. rewrite as_ps_ok. split.
    + intros H. destruct (str_at Pdiagnostic_name_fixed d) as [|c o] eqn:ST; [|destruct H as (x & H); destruct (C57_not_both s (c :: o)) as [[(m & M) _] _]; [discriminate|congruence]].
      apply (checks_ok _ _ _ (C57_diagnostic_name s (NLv s eq_refl)) (diag_dec s (NLv s eq_refl))) in H. apply Va_diagnostic; [exact H|]. now apply (text_of_iff d _ _ ND).
    + intros V. inversion V; subst; try kill; try contradiction. match goal with H : text_of _ _ _ |- _ => apply (text_of_iff d _ _ ND) in H; rewrite H end.
      apply (checks_ok _ _ _ (C57_diagnostic_name s (NLv s eq_refl)) (diag_dec s (NLv s eq_refl))). auto.
  - (* diagnostic_name_fixed *) destruct v as [s|b|l|f]; try (apply STR; [reflexivity|discriminate]).
    destruct (list_eq_dec ascii_dec s []) as [->|S0]; [split; [intros _; apply Va_no_diagnostic; auto|intros _; unfold accepts, valid_value; cbn; eauto]|].
    rewrite acc_str by auto. cbn [check]. rewrite as_ps_ok. split.
    + intros H. destruct (str_at Pdiagnostic_name d) as [|c o] eqn:ST; [|destruct H as (x & H); destruct (C57_not_both s (c :: o)) as [_ [(m & M) _]]; [discriminate|congruence]].
      apply (checks_ok _ _ _ (C57_fixed_name s (NLv s eq_refl)) (name_dec s (NLv s eq_refl))) in H. apply Va_fixed; [exact H|]. now apply (text_of_iff d _ _ ND).
    + intros V. inversion V; subst; try kill; try contradiction. match goal with H : text_of _ _ _ |- _ => apply (text_of_iff d _ _ ND) in H; rewrite H end.
      apply (checks_ok _ _ _ (C57_fixed_name s (NLv s eq_refl)) (name_dec s (NLv s eq_refl))). auto.
  - (* default_value *) destruct v as [s|b|l|f]; try (apply STR; [reflexivity|discriminate]).
    destruct (list_eq_dec ascii_dec s []) as [->|S0]; [split; [intros _; apply Va_no_diagnostic; auto|intros _; unfold accepts, valid_value; cbn; eauto]|].
    rewrite acc_str by auto. cbn [check].
    assert (KD : (match (if has Pkind d then Some (str_at Pkind d) else None) with Some x => strip (lower x) | None => [] end) = strip (lower (str_at Pkind d))).
    { unfold has, str_at. destruct (get Pkind d); reflexivity. }
    assert (EM : forall k, check_fortran_literal s [] k <> Ok true).
    { intros k E. unfold check_fortran_literal in E. change (lit_type []) with (@nil ascii) in E. cbn [str_eqb] in E. change (str_eqb [] (L "complex")) with false in E. cbv iota in E. unfold simple_literal in E.
      change (str_eqb [] (L "character")) with false in E. cbv iota zeta in E. destruct (negb _); [discriminate|]. cbn in E. discriminate. }
    destruct (has Ptype d) eqn:HT.
    + rewrite as_ps_ok. unfold check_default_value. rewrite KD. split.
      * intros (o & E). apply bind_inv in E as (b & LI & E). destruct b; [|discriminate]. unfold has in HT. unfold str_at at 1 in LI. destruct (get Ptype d) as [[t|b|l|f]|] eqn:GT; try discriminate; try (now elim (EM _ LI)).
        apply Va_default with (t := t) (k := str_at Pkind d); [now apply get_in|now apply (text_of_iff d _ _ ND)|exact LI].
      * intros V. inversion V; subst; try kill; try contradiction. match goal with H : given d Ptype (PS ?t) |- _ => assert (ST : str_at Ptype d = t) by (apply (text_of_iff d _ _ ND); now left) end.
        match goal with H : text_of _ _ _ |- _ => apply (text_of_iff d _ _ ND) in H; subst end. match goal with H : literal _ _ _ |- _ => unfold literal in H; rewrite H end. cbn [bind]. eauto.
    + split; [intros (o & E); discriminate|]. intros V. inversion V; subst; try kill; try contradiction.
      match goal with H : given d Ptype ?x |- _ => assert (X : has Ptype d = true) by (apply has_given; eauto); congruence end.
  - (* persistence *) unfold accepts, valid_value. cbn [prop_type]. destruct v as [s|b|l|f]; cbn [convert bind]; try (split; [intros (o & E); discriminate|intros V; inversion V; subst; kill]).
    destruct (mem_str s [L "timestep"; L "run"]) eqn:M.
    + split; [intros _|intros _; destruct (truthy (PS s)); cbn; eauto]. apply existsb_exists in M as (x & I & E). apply str_eqb_eq in E. subst x. apply Va_persistence. destruct I as [<-|[<-|[]]]; auto.
    + split; [intros (o & E); discriminate|]. intros V. inversion V; subst; try kill. match goal with H : _ \/ _ |- _ => destruct H as [-> | ->]; vm_compute in M; discriminate end.
  - (* active *) destruct v as [s|b|l|f]; try (apply STR; [reflexivity|discriminate]).
    split; [intros _; apply Va_text; right; right; now left|]. intros _. apply acc_text; [reflexivity|]. intros []; reflexivity.
  - (* intent *) unfold accepts, valid_value. cbn [prop_type]. destruct v as [s|b|l|f]; cbn [convert bind]; try (split; [intros (o & E); discriminate|intros V; inversion V; subst; kill]).
    destruct (mem_str s [L "in"; L "out"; L "inout"]) eqn:M.
    + split; [intros _|intros _; destruct (truthy (PS s)); cbn; eauto]. apply existsb_exists in M as (x & I & E). apply str_eqb_eq in E. subst x. apply Va_intent. destruct I as [<-|[<-|[<-|[]]]]; auto.
    + split; [intros (o & E); discriminate|]. intros V. inversion V; subst; try kill. match goal with H : _ \/ _ |- _ => destruct H as [-> |[-> | ->]]; vm_compute in M; discriminate end.
  - (* molar_mass *)
    assert (MF : forall f, (exists o, (if truthy (PF f) then check (registered names) (Some d) Pmolar_mass (PF f) true else Ok (Some (PF f))) = Ok o) <-> f_zero f = true \/ f_in_range f = true).
    { intros f. cbn [truthy check]. destruct (f_zero f), (f_in_range f); cbn [negb]; split; intros H; eauto; try (destruct H; discriminate). }
    unfold accepts, valid_value. cbn [prop_type]. destruct v as [s|b|l|f]; cbn [convert].
    + destruct (fl s) as [f|] eqn:FL; cbn [bind].
      * rewrite MF. split; [intros Z; now apply Va_mass_text with (f := f)|]. intros V. inversion V; subst; try kill. congruence.
      * split; [intros (o & E); discriminate|]. intros V. inversion V; subst; try kill. congruence.
    + split; [intros _; apply Va_mass_bool|]. intros _. destruct b; cbn; eauto.
    + split; [intros (o & E); discriminate|]. intros V. inversion V; subst; kill.
    + cbn [bind]. rewrite MF. split; [apply Va_mass|]. intros V. inversion V; subst; try kill. auto.
Qed.
Lemma check_all_ok fl ddts d l : (exists u, check_all fl ddts d l = Ok u) <-> forall n v, In (n, v) l -> exists o, valid_value fl ddts (Some d) n v true = Ok o.
Proof.
  induction l as [|[n v] l IH]; cbn [check_all]; [split; [intros _ n v []|eauto]|].
  assert (RR : forall r, (exists u, reraise r = Ok u) <-> exists o, r = Ok o).
  { intros [o|m]; cbn [reraise]; split; intros (x & E); eauto; [|discriminate]. destruct (prefix _ _); discriminate. }
  split.
  - intros (u & H). apply bind_inv in H as (x & X & H). intros m w [E|I]; [injection E as <- <-; apply RR; eauto|]. apply IH; eauto.
  - intros H. destruct (proj2 (RR _) (H n v (or_introl eq_refl))) as (u & ->). cbn [bind]. apply IH. intros m w I. apply H. now right.
Qed.
Lemma given_set d n v m w : given (set n v d) m w <-> (m = n /\ w = v) \/ (m <> n /\ given d m w).
Proof.
  unfold set, given. destruct (has n d) eqn:H.
  - rewrite in_map_iff. split.
    + intros ([k u] & E & I). cbn [fst] in E. destruct (prop_dec k n) as [->|NE]; injection E as -> ->; [now left|now right].
    + apply has_given in H as (u & U). intros [[-> ->]|[NE I]].
      * exists (n, u). cbn [fst]. destruct (prop_dec n n); [auto|congruence].
      * exists (m, w). cbn [fst]. destruct (prop_dec m n); [contradiction|auto].
  - rewrite in_app_iff. cbn [In]. split.
    + intros [I|[E|[]]]; [|injection E as -> ->; now left]. destruct (prop_dec m n) as [->|NE]; [|now right]. assert (X : has n d = true) by (apply has_given; eauto). congruence.
    + intros [[-> ->]|[NE I]]; auto.
Qed.
Lemma nodup_set d n v : NoDup (map fst d) -> NoDup (map fst (set n v d)).
Proof.
  intros N. unfold set. destruct (has n d) eqn:H.
  - rewrite map_map. rewrite (map_ext _ fst); [exact N|]. intros [k u]. cbn [fst]. destruct (prop_dec k n) as [->|]; reflexivity.
  - rewrite map_app. cbn [map fst]. apply NoDup_snoc; [exact N|]. intros I. apply in_map_iff in I as ([k u] & E & I). cbn in E. subst k.
    assert (X : has n d = true) by (apply has_given; eauto). congruence.
Qed.
Lemma given_del d n m w : given (del n d) m w <-> m <> n /\ given d m w.
Proof.
  unfold del, given. rewrite filter_In. cbn [fst]. destruct (prop_dec m n) as [->|NE]; split; intros [A B]; split; auto; try discriminate; congruence.
Qed.
Lemma nodup_del d n : NoDup (map fst d) -> NoDup (map fst (del n d)).
Proof.
  unfold del. induction d as [|[k u] d IH]; intros N; [constructor|]. cbn [map fst] in N. inversion N as [|? ? N1 N2]; subst. cbn [List.filter fst].
  destruct (prop_dec k n); [now apply IH|]. cbn [map fst]. constructor; [|now apply IH]. intros I. apply N1. apply in_map_iff in I as (x & E & I). apply filter_In in I as [I _]. apply in_map_iff. eauto.
Qed.
Lemma valid_known fl names d n v : valid fl names d n v -> exists t, prop_type n = Some t.
Proof.
  intros V. inversion V; subst; try (eexists; reflexivity).
  - destruct H as [<-|[<-|[<-|[]]]]; eexists; reflexivity.
  - destruct H as [<-|[<-|[<-|[<-|[<-|[<-|[<-|[<-|[<-|[]]]]]]]]]]; eexists; reflexivity.
  - destruct H as [<-|[<-|[<-|[<-|[<-|[<-|[<-|[<-|[<-|[]]]]]]]]]]; eexists; reflexivity.
  - destruct H as [->|[->| ->]]; eexists; reflexivity.
Qed.
Lemma intent_ok d : NoDup (map fst d) -> (forall v, given d Pintent v -> v = PS (L "in") \/ v = PS (L "out") \/ v = PS (L "inout")) ->
  (exists u, intent_rule d = Ok u) <-> (given_true d Pprotected -> forall v, given d Pintent v -> v = PS (L "in")).
Proof.
  intros N IV. unfold intent_rule. destruct (get Pprotected d) as [p|] eqn:GP.
  - destruct (get Pintent d) as [i|] eqn:GI.
    + apply (get_given d _ _ N) in GP, GI.
      assert (BAD : forall x, i = PS x -> x <> L "in" -> negb (str_eqb (lower x) (L "in")) = true ->
        ((exists u, (if negb (str_eqb (lower x) (L "in")) && truthy p then Raise "ParseSyntaxError" else Ok tt) = Ok u) <-> (given_true d Pprotected -> forall v, given d Pintent v -> v = PS (L "in")))).
      { intros x -> NX EX. rewrite EX. cbn [andb]. destruct (truthy p) eqn:TP; split.
        - intros (u & E). discriminate.
        - intros H. exfalso. assert (X : PS x = PS (L "in")); [|congruence]. apply H; [|exact GI]. exists p. split; [exact GP|now apply truthy_iff].
        - intros _ (w & W1 & W2). rewrite (given_fun d _ _ _ N W1 GP) in W2. apply truthy_iff in W2. congruence.
        - eauto. }
      destruct (IV i GI) as [-> |[-> | ->]].
      * change (str_eqb (lower (L "in")) (L "in")) with true. cbn [negb andb]. split; [|eauto]. intros _ _ v G. exact (given_fun d _ _ _ N G GI).
      * apply BAD; [reflexivity|discriminate|reflexivity].
      * apply BAD; [reflexivity|discriminate|reflexivity].
    + split; [|eauto]. intros _ _ v G. elim (proj1 (get_none d _) GI v G).
  - split; [|eauto]. intros _ (w & W & _). elim (proj1 (get_none d _) GP w W).
Qed.
Lemma intent_valid fl names d x : valid fl names d Pintent x -> x = PS (L "in") \/ x = PS (L "out") \/ x = PS (L "inout").
Proof. intros V. inversion V; subst; try kill. match goal with H : _ \/ _ |- _ => destruct H as [-> |[-> | ->]]; auto end. Qed.
(* the checks of the constructor, for a dictionary without ddt_type *)
Definition built (fl : str -> option pyfloat) (ddts : list str) (scheme : bool) (d : dict) (ddt : bool) : res var :=
  if negb (forallb (fun x => is_some (prop_type (fst x))) d) then Raise "ParseSyntaxError"
  else if negb (forallb (fun n => has n d) (required scheme)) then Raise "ParseSyntaxError"
  else u <- intent_rule d ;; w <- check_all fl ddts d d ;;
    Ok (mkVar d ddt (constituent_at Padvected d || constituent_at Pmolar_mass d || constituent_at Pconstituent d)).
Lemma make_built fl ddts scheme d : make_var fl ddts scheme d = built fl ddts scheme (fst (ddt_rules d)) (snd (ddt_rules d)).
Proof. unfold make_var, built. destruct (ddt_rules d). reflexivity. Qed.
Lemma built_inv fl ddts scheme d ddt v : built fl ddts scheme d ddt = Ok v -> v_props v = d /\ v_ddt v = ddt /\ v_constituent v = (constituent_at Padvected d || constituent_at Pmolar_mass d || constituent_at Pconstituent d).
Proof.
  unfold built. destruct (negb _); [discriminate|]. destruct (negb _); [discriminate|]. intros H. apply bind_inv in H as (u & _ & H). apply bind_inv in H as (w & _ & H). apply Ok_inj in H. subst v. auto.
Qed.
Lemma built_ok fl names scheme d ddt : ordinary d -> decided d -> (exists v, built fl (registered names) scheme d ddt = Ok v) <-> legal fl names scheme d.
Proof.
  intros OD DD. assert (ND := proj1 OD). unfold built, legal. split.
  - intros (v & H). destruct (forallb (fun x => is_some (prop_type (fst x))) d) eqn:KN; [|discriminate]. destruct (forallb (fun n => has n d) (required scheme)) eqn:RQ; [|discriminate]. cbn [negb] in H.
    apply bind_inv in H as (u & U & H). apply bind_inv in H as (w & W & _). rewrite forallb_forall in KN, RQ.
    assert (VA : forall n v, given d n v -> valid fl names d n v).
    { intros n x G. apply valid_value_iff; auto; [|apply (proj1 (check_all_ok fl (registered names) d d)); eauto]. specialize (KN _ G). cbn in KN. destruct (prop_type n); [eauto|discriminate]. }
    split; [exact VA|]. split; [intros n I; apply has_given, RQ; apply in_or_app; now left|]. split.
    + intros ->. apply has_given, RQ. apply in_or_app. right. now left.
    + apply (intent_ok d ND); [|eauto]. intros x G. apply (intent_valid fl names d). now apply VA.
  - intros (VA & RQ & RI & PI).
    assert (KN : forallb (fun x => is_some (prop_type (fst x))) d = true).
    { apply forallb_forall. intros [n x] G. destruct (valid_known _ _ _ _ _ (VA n x G)) as (t & E). cbn [fst]. rewrite E. reflexivity. }
    assert (RR : forallb (fun n => has n d) (required scheme) = true).
    { apply forallb_forall. intros n I. apply has_given. unfold required in I. apply in_app_or in I as [I|I]; [auto|]. destruct scheme; [|destruct I]. destruct I as [<-|[]]. auto. }
    rewrite KN, RR. cbn [negb]. destruct (proj2 (intent_ok d ND (fun x G => intent_valid fl names d x (VA _ x G))) PI) as (u & ->). cbn [bind].
    destruct (proj2 (check_all_ok fl (registered names) d d)) as (w & ->); [|cbn [bind]; eauto].
    intros n x G. apply (valid_value_iff fl names d n x OD DD G); [|now apply VA]. now apply (valid_known fl names d n x), VA.
Qed.
(* ---- long names ---- *)
Definition dpd (s : str) (i : nat) : Prop :=
  exists j a b, i = Datatypes.S j /\ nth_error s j = Some a /\ is_digit a = true /\ nth_error s i = Some "p"%char /\ nth_error s (Datatypes.S i) = Some b /\ is_digit b = true.
Lemma dpd_cons a s i : dpd s i -> dpd (a :: s) (Datatypes.S i).
Proof. intros (j & x & y & -> & H1 & H2 & H3 & H4 & H5). exists (Datatypes.S j), x, y. repeat split; auto. Qed.
Lemma dpd_cons_inv a s i : dpd (a :: s) (Datatypes.S (Datatypes.S i)) -> dpd s (Datatypes.S i).
Proof. intros (j & x & y & E & H1 & H2 & H3 & H4 & H5). injection E as <-. exists i, x, y. repeat split; auto. Qed.
Lemma subst_last_none s : subst_last s = None -> forall i, ~ dpd s i.
Proof.
  induction s as [|a r IH]; intros H i D.
  - destruct D as (j & x & y & _ & D & _). destruct j; discriminate.
  - cbn [subst_last] in H. destruct (subst_last r) as [r'|]; [discriminate|]. destruct i as [|[|i]].
    + destruct D as (j & x & y & E & _). discriminate.
    + destruct D as (j & x & y & E & H1 & H2 & H3 & H4 & H5). injection E as <-. cbn in H1. injection H1 as ->. cbn in H3, H4. destruct r as [|p [|b t]]; try discriminate. cbn in H3, H4. injection H3 as ->. injection H4 as ->.
      rewrite H2, H5 in H. cbn in H. discriminate.
    + apply (IH eq_refl (Datatypes.S i)). now apply dpd_cons_inv in D.
Qed.
Fixpoint count_p (s : str) : nat := match s with [] => 0 | c :: r => (if Ascii.eqb c "p" then 1 else 0) + count_p r end.
Lemma count_p_le s : count_p s <= List.length s.
Proof. induction s as [|c s IH]; cbn [count_p List.length]; [lia|]. destruct (Ascii.eqb c "p"); lia. Qed.
Lemma subst_last_some s : forall t, subst_last s = Some t -> List.length t = List.length s /\ Datatypes.S (count_p t) = count_p s /\
  exists i, dpd s i /\ nth_error t i = Some "."%char /\ forall j, j <> i -> nth_error t j = nth_error s j.
Proof.
  induction s as [|a r IH]; intros t H; cbn [subst_last] in H; [discriminate|].
  destruct (subst_last r) as [r'|] eqn:SR.
  - injection H as <-. destruct (IH r' eq_refl) as (LE & CO & i & D & N1 & N2). cbn [List.length count_p]. split; [lia|]. split; [lia|].
    exists (Datatypes.S i). split; [now apply dpd_cons|]. split; [exact N1|]. intros [|j] J; [reflexivity|]. cbn. apply N2. congruence.
  - destruct r as [|p [|b u]]; try discriminate. destruct (is_digit a && Ascii.eqb p "p" && is_digit b) eqn:E; [|discriminate].
    injection H as <-. apply andb_true_iff in E as [E E3]. apply andb_true_iff in E as [E1 E2]. apply Ascii.eqb_eq in E2. subst p.
    split; [reflexivity|]. split; [cbn; destruct (Ascii.eqb a "p"); destruct (Ascii.eqb b "p"); lia|].
    exists 1. split; [exists 0, a, b; repeat split; auto|]. split; [reflexivity|]. intros [|[|j]] J; [reflexivity|congruence|reflexivity].
Qed.
Lemma subst_loop_spec fuel : forall s, count_p s <= fuel -> List.length (subst_loop fuel s) = List.length s /\
  (forall i, dpd s i -> nth_error (subst_loop fuel s) i = Some "."%char) /\ (forall i, ~ dpd s i -> nth_error (subst_loop fuel s) i = nth_error s i).
Proof.
  induction fuel as [|k IH]; intros s C.
  - cbn [subst_loop]. split; [reflexivity|]. split; [|auto]. intros i (j & a & b & _ & _ & _ & P & _). exfalso. apply nth_error_In in P.
    clear - C P. induction s as [|c s IHs]; [destruct P|]. cbn [count_p] in C. destruct P as [->|P]; [rewrite Ascii.eqb_refl in C; lia|]. apply IHs; [lia|exact P].
  - cbn [subst_loop]. destruct (subst_last s) as [t|] eqn:SL.
    + destruct (subst_last_some s t SL) as (LE & CO & i & D & N1 & N2). destruct (IH t) as (L1 & L2 & L3); [lia|].
      assert (SAME : forall j, j <> i -> (dpd t j <-> dpd s j)).
      { intros j J. assert (DG : forall m x, is_digit x = true -> (nth_error t m = Some x <-> nth_error s m = Some x)).
        { intros m x X. destruct (Nat.eq_dec m i) as [->|NE]; [|now rewrite N2]. rewrite N1. destruct D as (j0 & a & b & _ & _ & _ & P & _). rewrite P. split; intros Q; injection Q as <-; discriminate X. }
        unfold dpd. split; intros (m & a & b & -> & A1 & A2 & A3 & A4 & A5); exists m, a, b; repeat split; auto; try (now apply DG); try (now rewrite <- N2); now rewrite N2. }
      split; [lia|]. assert (NI : ~ dpd t i) by (intros (m & a & b & _ & _ & _ & P & _); congruence). split.
      * intros j J. destruct (Nat.eq_dec j i) as [->|NE]; [now rewrite L3|]. apply L2. now apply SAME.
      * intros j J. assert (NE : j <> i) by (intros ->; contradiction). rewrite L3; [now apply N2|]. intros X. apply J. now apply SAME.
    + split; [reflexivity|]. split; [|auto]. intros i D. elim (subst_last_none s SL i D).
Qed.
Lemma upper_digit c : is_digit (upper_c c) = is_digit c.
Proof. destruct c as [[] [] [] [] [] [] [] []]; reflexivity. Qed.
Definition blanked (s : str) : str := match s with [] => [] | c :: r => upper_c c :: map (fun x => if Ascii.eqb x "_" then " "%char else x) r end.
Lemma blanked_nth s i c : nth_error s i = Some c -> nth_error (blanked s) i = Some (match i with 0 => upper_c c | _ => if Ascii.eqb c "_" then " "%char else c end).
Proof.
  destruct s as [|x r]; [destruct i; discriminate|]. destruct i as [|i]; cbn; [intros H; now injection H as ->|]. intros H. now rewrite (map_nth_error _ _ _ H).
Qed.
Lemma blanked_len s : List.length (blanked s) = List.length s.
Proof. destruct s; cbn; [reflexivity|]. now rewrite map_length. Qed.
Lemma blanked_digit s i : (exists c, nth_error (blanked s) i = Some c /\ is_digit c = true) <-> exists c, nth_error s i = Some c /\ is_digit c = true.
Proof.
  split; intros (c & N & D).
  - destruct (nth_error s i) as [x|] eqn:E.
    + rewrite (blanked_nth s i x E) in N. injection N as <-. exists x. split; [reflexivity|]. destruct i; [now rewrite upper_digit in D|]. destruct (Ascii.eqb x "_"); [discriminate|exact D].
    + apply nth_error_None in E. rewrite <- blanked_len in E. apply nth_error_None in E. congruence.
  - eexists. split; [exact (blanked_nth s i c N)|]. destruct i; [now rewrite upper_digit|]. destruct (Ascii.eqb c "_") eqn:E; [|exact D]. apply Ascii.eqb_eq in E. subst c. discriminate.
Qed.
Lemma long_name_eq s : long_name s = subst_loop (List.length (blanked s)) (blanked s).
Proof. destruct s; reflexivity. Qed.
Lemma blanked_dpd s i : dpd (blanked s) i <-> dpd s i.
Proof.
  assert (P : forall j, nth_error (blanked s) (Datatypes.S j) = Some "p"%char <-> nth_error s (Datatypes.S j) = Some "p"%char).
  { intros j. split; intros H; [|now rewrite (blanked_nth s _ _ H)]. destruct (nth_error s (Datatypes.S j)) as [x|] eqn:E.
    - rewrite (blanked_nth s _ x E) in H. destruct (Ascii.eqb x "_"); [discriminate|]. exact H.
    - apply nth_error_None in E. rewrite <- blanked_len in E. apply nth_error_None in E. congruence. }
  split; intros (j & a & b & -> & A1 & A2 & A3 & A4 & A5).
  - destruct (proj1 (blanked_digit s j)) as (a' & B1 & B2); [eauto|]. destruct (proj1 (blanked_digit s (Datatypes.S (Datatypes.S j)))) as (b' & C1 & C2); [eauto|].
    exists j, a', b'. split; [reflexivity|]. split; [exact B1|]. split; [exact B2|]. split; [now apply P|]. split; [exact C1|exact C2].
  - destruct (proj2 (blanked_digit s j)) as (a' & B1 & B2); [eauto|]. destruct (proj2 (blanked_digit s (Datatypes.S (Datatypes.S j)))) as (b' & C1 & C2); [eauto|].
    exists j, a', b'. split; [reflexivity|]. split; [exact B1|]. split; [exact B2|]. split; [now apply P|]. split; [exact C1|exact C2].
Qed.
