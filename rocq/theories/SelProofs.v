(* SelProofs.v: lemmas for C91 to C94. *)
From Verif Require Import Base PyStr ReqModel ReqProofs StaticModel CommonModel DictModel DictProofs CheckProofs PreModel PreSpec PreProofs SelModel SelSpec.
From Coq Require Import Lia.
Open Scope nat_scope.
Open Scope list_scope.

(* ---- occurrences and replace ---- *)
Lemma starts_false (p s : str) : startswith p s = false <-> ~ exists r, s = p ++ r.
Proof. destruct (startswith p s) eqn:E; [apply starts_spec in E|]; split; try discriminate; try tauto. intros _ H. apply starts_spec in H. congruence. Qed.
Lemma find_sub_none (p s : str) : forall i, find_sub p s i = None <-> ~ occurs p s.
Proof.
  induction s as [|c s IH]; intros i; cbn [find_sub]; destruct (startswith p _) eqn:E.
  - apply starts_spec in E as (r & E). split; [discriminate|]. intros H. exfalso. apply H. exists [], r. exact E.
  - apply starts_false in E. split; [|reflexivity]. intros _ (a & b & H). symmetry in H. apply app_eq_nil in H as [-> H]. apply E. exists b. now rewrite H.
  - apply starts_spec in E as (r & E). split; [discriminate|]. intros H. exfalso. apply H. exists [], r. exact E.
  - rewrite IH. apply starts_false in E. split; intros N (a & b & H).
    + destruct a as [|d a]; [apply E; now exists b|]. injection H as -> H. apply N. exists a, b. exact H.
    + apply N. exists (c :: a), b. now rewrite H.
Qed.
Lemma find_sub_first (p x : str) q : forall i, (forall a b, q ++ p ++ x = a ++ p ++ b -> length q <= length a) ->
  find_sub p (q ++ p ++ x) i = Some (i + length q).
Proof.
  induction q as [|c q IH]; intros i F.
  - cbn [app]. assert (S : startswith p (p ++ x) = true) by (apply starts_spec; eauto). destruct (p ++ x) eqn:E; cbn [find_sub]; rewrite S; f_equal; cbn; lia.
  - cbn [app find_sub]. destruct (startswith p (c :: q ++ p ++ x)) eqn:E.
    + apply starts_spec in E as (r & E). specialize (F [] r). cbn [app length] in F. specialize (F E). lia.
    + rewrite IH; [f_equal; cbn [length]; lia|]. intros a b H. specialize (F (c :: a) b). cbn [app length] in F. rewrite H in F. specialize (F eq_refl). lia.
Qed.
Lemma rep_skip (p r s : str) : forall k, rep p r s k = rep p r (skipn k s) 0.
Proof. induction s as [|c s IH]; intros [|k]; cbn [rep skipn]; auto. Qed.
Lemma replace_same (p s : str) : p <> [] -> replace p p s = s.
Proof.
  intros NE. unfold replace. remember (length s) as n eqn:En. assert (Hn : length s <= n) by lia. clear En. revert s Hn.
  induction n as [|n IH]; intros [|c s] Hn; cbn [length] in Hn; try reflexivity; [lia|].
  cbn [rep]. destruct (startswith p (c :: s)) eqn:E.
  - apply starts_spec in E as (r & E). rewrite rep_skip. destruct p as [|d p]; [congruence|]. injection E as -> E. subst s.
    cbn [length]. replace (S (length p) - 1) with (length p) by lia. rewrite skipn_app, skipn_all, Nat.sub_diag. cbn [app skipn].
    rewrite IH; [reflexivity|]. rewrite app_length in Hn. unfold str in *. lia.
  - f_equal. apply IH. lia.
Qed.
Lemma replace_none (p r s : str) : ~ occurs p s -> replace p r s = s.
Proof.
  unfold replace. induction s as [|c s IH]; intros N; [reflexivity|]. cbn [rep]. destruct (startswith p (c :: s)) eqn:E.
  - apply starts_spec in E as (x & E). exfalso. apply N. exists [], x. exact E.
  - f_equal. apply IH. intros (a & b & H). apply N. exists (c :: a), b. now rewrite H.
Qed.
Lemma replace_last (p r q : str) : p <> [] -> (forall a b, q ++ p = a ++ p ++ b -> length q <= length a) -> replace p r (q ++ p) = q ++ r.
Proof.
  intros NE. unfold replace. induction q as [|c q IH]; intros F.
  - cbn [app]. destruct p as [|d p]; [congruence|]. cbn [rep].
    assert (S1 : startswith (d :: p) (d :: p) = true) by (apply starts_spec; exists []; now rewrite app_nil_r). rewrite S1, rep_skip. cbn [length].
    replace (S (length p) - 1) with (length p) by lia. rewrite skipn_all. cbn. apply app_nil_r.
  - cbn [app rep]. destruct (startswith p (c :: q ++ p)) eqn:E.
    + apply starts_spec in E as (x & E). specialize (F [] x). cbn [app length] in F. specialize (F E). lia.
    + cbn [app]. f_equal. apply IH. intros a b H. specialize (F (c :: a) b). cbn [app length] in F. rewrite H in F. specialize (F eq_refl). lia.
Qed.
(* a match that starts in the first word does not cross a separator that is not in it *)
Lemma match_before (p a b A B : str) c : a ++ p ++ b = A ++ c :: B -> length a <= length A ->
  occurs p A \/ exists l l2, A = a ++ l /\ p = l ++ c :: l2 /\ B = l2 ++ b.
Proof.
  intros E Len. apply app_eq_app in E as (l & [[E1 E2]|[E1 E2]]).
  - assert (l = []) as -> by (subst a; rewrite app_length in Len; destruct l; [reflexivity|cbn in Len; lia]).
    rewrite app_nil_r in E1. subst a. cbn [app] in E2. destruct p as [|d p]; [left; exists A, []; now rewrite app_nil_r|].
    cbn [app] in E2. injection E2 as -> ->. right. exists [], p. rewrite app_nil_r. auto.
  - apply app_eq_app in E2 as (l2 & [[E2 E3]|[E2 E3]]).
    + destruct l2 as [|d l2].
      * rewrite app_nil_r in E2. subst l. left. exists a, []. now rewrite app_nil_r.
      * injection E3 as <- E3. right. exists l, l2. auto.
    + left. exists a, l2. now rewrite E1, E2.
Qed.
Lemma match_after (p a b A B : str) c : a ++ p ++ b = A ++ c :: B -> length A < length a -> occurs p B.
Proof.
  intros E Len. apply app_eq_app in E as (l & [[E1 E2]|[E1 E2]]).
  - destruct l as [|d l]; [rewrite app_nil_r in E1; subst; unfold str in *; lia|]. injection E2 as -> E2. exists l, b. exact E2.
  - subst A. rewrite app_length in Len. unfold str in *. lia.
Qed.
Lemma occurs_sep (p A B : str) c : ~ In c p -> occurs p (A ++ c :: B) -> occurs p A \/ occurs p B.
Proof.
  intros N (a & b & E). symmetry in E. destruct (Nat.le_gt_cases (length a) (length A)) as [Len|Len].
  - destruct (match_before _ _ _ _ _ _ E Len) as [H|(l & l2 & _ & -> & _)]; [now left|]. exfalso. apply N, in_or_app. right. now left.
  - right. eapply match_after; eauto.
Qed.
Lemma one_us (l l2 p1 p2 : str) : ~ In "_"%char p1 -> ~ In "_"%char p2 -> l ++ "_"%char :: l2 = p1 ++ "_"%char :: p2 -> l = p1 /\ l2 = p2.
Proof.
  intros N1 N2. revert p1 N1. induction l as [|x l IH]; intros [|y p1] N1 E; cbn [app] in E.
  - injection E as ->. auto.
  - injection E as <- E. exfalso. apply N1. now left.
  - injection E as -> E. exfalso. apply N2. rewrite <- E. apply in_or_app. right. now left.
  - injection E as -> E. destruct (IH p1) as [-> ->]; auto. intros I. apply N1. now right.
Qed.
Lemma decide_occurs p s : find_sub p s 0 = None -> ~ occurs p s.
Proof. apply find_sub_none. Qed.
(* the position of a stage name with an underscore in t_w *)
Lemma ts_before (p2 t w a b : str) : ~ In "_"%char p2 -> ~ occurs (L "timestep_" ++ p2) t -> ~ (exists x, t = x ++ L "timestep") ->
  a ++ (L "timestep_" ++ p2) ++ b = t ++ L "_" ++ w -> length t < length a /\ occurs (L "timestep_" ++ p2) w.
Proof.
  intros N2 NO NE E. change (t ++ L "_" ++ w) with (t ++ "_"%char :: w) in E.
  destruct (Nat.le_gt_cases (length a) (length t)) as [Len|Len].
  - exfalso. destruct (match_before _ _ _ _ _ _ E Len) as [H|(l & l2 & E1 & E2 & _)]; [auto|].
    change (L "timestep_" ++ p2) with (L "timestep" ++ "_"%char :: p2) in E2. symmetry in E2.
    apply one_us in E2 as [-> _]; [|cbn; intuition discriminate|exact N2]. apply NE. now exists a.
  - split; [exact Len|]. eapply match_after; eauto.
Qed.
Lemma ts_none (p2 t w : str) : ~ In "_"%char p2 -> ~ occurs (L "timestep_" ++ p2) t -> ~ (exists x, t = x ++ L "timestep") ->
  ~ occurs (L "timestep_" ++ p2) w -> ~ occurs (L "timestep_" ++ p2) (t ++ L "_" ++ w).
Proof. intros N2 NO NE NW (a & b & E). symmetry in E. apply ts_before in E as [_ H]; auto. Qed.
Lemma no_us_init : ~ In "_"%char (L "init"). Proof. cbn. intuition discriminate. Qed.
Lemma no_us_finalize : ~ In "_"%char (L "finalize"). Proof. cbn. intuition discriminate. Qed.
Lemma fin_none (t w : str) : ~ occurs (L "finalize") t -> ~ occurs (L "finalize") w -> ~ occurs (L "finalize") (t ++ L "_" ++ w).
Proof. intros A B H. change (t ++ L "_" ++ w) with (t ++ "_"%char :: w) in H. apply occurs_sep in H as [H|H]; auto. apply no_us_finalize. Qed.
Theorem abbreviate_clean t s : clean t -> abbreviate (t ++ L "_" ++ stage_name s) = t ++ L "_" ++ stage_short s.
Proof.
  intros (C1 & C2 & C3 & C4). unfold abbreviate, stages. cbn [fold_left].
  change (stage_name Init) with (L "init"). change (stage_short Init) with (L "init"). change (stage_name Run) with (L "run"). change (stage_short Run) with (L "run").
  rewrite (replace_same (L "init")), (replace_same (L "run")) by discriminate.
  change (stage_name TsInit) with (L "timestep_" ++ L "init"). change (stage_name TsFinal) with (L "timestep_" ++ L "finalize"). change (stage_name Final) with (L "finalize").
  destruct s.
  - assert (E : replace (L "timestep_" ++ L "init") (stage_short TsInit) (t ++ L "_" ++ L "timestep_" ++ L "init") = (t ++ L "_") ++ L "tsinit").
    { rewrite app_assoc. apply replace_last; [discriminate|]. intros a b H. rewrite <- app_assoc in H. symmetry in H.
      apply ts_before in H as [H _]; auto using no_us_init. rewrite app_length. change (length (L "_")) with 1. unfold str in *. lia. }
    change (stage_name TsInit) with (L "timestep_" ++ L "init"). rewrite E. rewrite <- app_assoc.
    rewrite (replace_none (L "timestep_" ++ L "finalize")). 2:{ apply ts_none; auto using no_us_finalize. now apply decide_occurs. }
    rewrite (replace_none (L "finalize")); [reflexivity|]. apply fin_none; auto. now apply decide_occurs.
  - change (stage_name TsFinal) with (L "timestep_" ++ L "finalize").
    rewrite (replace_none (L "timestep_" ++ L "init")). 2:{ apply ts_none; auto using no_us_init. now apply decide_occurs. }
    assert (E : replace (L "timestep_" ++ L "finalize") (stage_short TsFinal) (t ++ L "_" ++ L "timestep_" ++ L "finalize") = (t ++ L "_") ++ L "tsfinal").
    { rewrite app_assoc. apply replace_last; [discriminate|]. intros a b H. rewrite <- app_assoc in H. symmetry in H.
      apply ts_before in H as [H _]; auto using no_us_finalize. rewrite app_length. change (length (L "_")) with 1. unfold str in *. lia. }
    rewrite E. rewrite <- app_assoc.
    rewrite (replace_none (L "finalize")); [reflexivity|]. apply fin_none; auto. now apply decide_occurs.
  - change (stage_name Init) with (L "init").
    rewrite (replace_none (L "timestep_" ++ L "init")). 2:{ apply ts_none; auto using no_us_init. now apply decide_occurs. }
    rewrite (replace_none (L "timestep_" ++ L "finalize")). 2:{ apply ts_none; auto using no_us_finalize. now apply decide_occurs. }
    rewrite (replace_none (L "finalize")); [reflexivity|]. apply fin_none; auto. now apply decide_occurs.
  - change (stage_name Run) with (L "run").
    rewrite (replace_none (L "timestep_" ++ L "init")). 2:{ apply ts_none; auto using no_us_init. now apply decide_occurs. }
    rewrite (replace_none (L "timestep_" ++ L "finalize")). 2:{ apply ts_none; auto using no_us_finalize. now apply decide_occurs. }
    rewrite (replace_none (L "finalize")); [reflexivity|]. apply fin_none; auto. now apply decide_occurs.
  - change (stage_name Final) with (L "finalize").
    rewrite (replace_none (L "timestep_" ++ L "init")). 2:{ apply ts_none; auto using no_us_init. now apply decide_occurs. }
    rewrite (replace_none (L "timestep_" ++ L "finalize")). 2:{ apply ts_none; auto using no_us_finalize. now apply decide_occurs. }
    rewrite app_assoc. rewrite replace_last; [now rewrite <- app_assoc|discriminate|]. intros a b H. rewrite <- app_assoc in H. symmetry in H.
    change (t ++ L "_" ++ L "finalize") with (t ++ "_"%char :: L "finalize") in H. rewrite app_length. change (length (L "_")) with 1.
    destruct (Nat.le_gt_cases (length a) (length t)) as [Len|Len]; [|unfold str in *; lia]. exfalso.
    destruct (match_before _ _ _ _ _ _ H Len) as [K|(l & l2 & _ & K & _)]; [auto|]. apply no_us_finalize. rewrite K. apply in_or_app. right. now left.
Qed.
(* ---- the routine in the container ---- *)
Lemma no_space_module : ~ In " "%char (L "SUBROUTINE"). Proof. cbn. intuition discriminate. Qed.
Lemma cut_us_app (a b : str) : ~ In "_"%char a -> cut_us (a ++ "_"%char :: b) = Some (a, b).
Proof.
  induction a as [|c a IH]; intros N; [reflexivity|]. cbn [app cut_us]. destruct (Ascii.eqb c "_") eqn:E; [apply Ascii.eqb_eq in E; subst; exfalso; apply N; now left|].
  rewrite IH; [reflexivity|]. intros I. apply N. now right.
Qed.
Lemma subroutine_of_ok (m t x c : str) : plain m -> plain t -> ~ In " "%char x ->
  encode_container [m; t; x] = Ok c -> subroutine_of c = Ok x.
Proof.
  intros [M1 M2] [T1 T2] X E. unfold encode_container in E.
  assert (Ec : c = L "MODULE_" ++ m ++ L " SCHEME_" ++ t ++ L " SUBROUTINE_" ++ x) by congruence. rewrite Ec. clear E Ec c. unfold subroutine_of, decode_container.
  set (i1 := L "MODULE" ++ "_"%char :: m). set (i2 := L "SCHEME" ++ "_"%char :: t). set (i3 := L "SUBROUTINE" ++ "_"%char :: x).
  assert (S : split_on " " (L "MODULE_" ++ m ++ L " SCHEME_" ++ t ++ L " SUBROUTINE_" ++ x) = [i1; i2; i3]).
  { change (L "MODULE_" ++ m ++ L " SCHEME_" ++ t ++ L " SUBROUTINE_" ++ x) with (i1 ++ L " SCHEME_" ++ t ++ L " SUBROUTINE_" ++ x).
    change (L " SCHEME_" ++ t ++ L " SUBROUTINE_" ++ x) with (" "%char :: (i2 ++ " "%char :: i3)).
    assert (NS : forall (w y : str), ~ In " "%char w -> ~ In " "%char y -> ~ In " "%char (w ++ "_"%char :: y)).
    { intros w y A B I. apply in_app_or in I as [I|[I|I]]; [auto|discriminate|auto]. }
    rewrite split_app by (apply NS; [cbn; intuition discriminate|exact M1]). rewrite split_app by (apply NS; [cbn; intuition discriminate|exact T1]).
    rewrite split_none by (apply NS; [cbn; intuition discriminate|exact X]). reflexivity. }
  rewrite S. cbn [length Nat.leb map].
  assert (C : forall (w y : str), ~ In "_"%char w -> (let '(a, b) := cut_item (w ++ "_"%char :: y) in a ++ L " " ++ b) = w ++ L " " ++ y).
  { intros w y N. unfold cut_item. now rewrite cut_us_app. }
  unfold i1, i2, i3. rewrite !C by (cbn; intuition discriminate). cbn [bind]. clear S i1 i2 i3 C.
  assert (J : join (L " ") [L "MODULE" ++ L " " ++ m; L "SCHEME" ++ L " " ++ t; L "SUBROUTINE" ++ L " " ++ x]
     = ((L "MODULE" ++ " "%char :: m ++ " "%char :: L "SCHEME" ++ " "%char :: t) ++ [" "%char]) ++ L "SUBROUTINE" ++ " "%char :: x).
  { unfold join. cbn [app L]. repeat (rewrite <- ?app_assoc; cbn [app]). reflexivity. }
  rewrite J. clear J. set (W := L "MODULE" ++ " "%char :: m ++ " "%char :: L "SCHEME" ++ " "%char :: t).
  assert (NW : ~ occurs (L "SUBROUTINE") W).
  { unfold W. intros H. apply occurs_sep in H as [H|H]; [| |apply no_space_module]. { revert H. now apply decide_occurs. }
    apply occurs_sep in H as [H|H]; [auto| |apply no_space_module].
    apply occurs_sep in H as [H|H]; [|auto|apply no_space_module]. revert H. now apply decide_occurs. }
  rewrite find_sub_first.
  - cbn [Nat.add]. f_equal. rewrite app_assoc. 
    replace (length (W ++ [" "%char]) + 11) with (length ((W ++ [" "%char]) ++ L "SUBROUTINE") + 1) by (rewrite (app_length _ (L "SUBROUTINE")); change (length (L "SUBROUTINE")) with 10; lia).
    rewrite skipn_app. rewrite skipn_all2 by (unfold str in *; lia). cbn [app].
    replace (length ((W ++ [" "%char]) ++ L "SUBROUTINE") + 1 - length ((W ++ [" "%char]) ++ L "SUBROUTINE")) with 1 by lia. reflexivity.
  - intros a b H. rewrite <- app_assoc in H. cbn [app] in H. symmetry in H. rewrite app_length. cbn [length].
    destruct (Nat.le_gt_cases (length a) (length W)) as [Len|Len]; [|unfold str in *; lia]. exfalso.
    destruct (match_before _ _ _ _ _ _ H Len) as [K|(l & l2 & _ & K & _)]; [auto|]. apply no_space_module. rewrite K. apply in_or_app. right. now left.
Qed.
(* ---- Suite.parse ---- *)
Lemma sub_schemes_ok s n ts : py_int s = Some n -> forall loop,
  sub_schemes (Some s) (map Some ts) loop = Ok (match ts with [] => loop | _ => Some n end, ts).
Proof.
  intros E. induction ts as [|t ts IH]; intros loop; [reflexivity|]. cbn [map sub_schemes int_attr]. rewrite E. cbn [bind]. rewrite IH. cbn [bind fst snd].
  destruct ts; reflexivity.
Qed.
Lemma subcycles_ok l cs : Forall2 (fun p c => (exists s, fst p = Some s /\ py_int s = Some (sc_loop c)) /\ snd p = map Some (sc_schemes c) /\ sc_schemes c <> []) l cs ->
  forall loop, exists loop', subcycles l loop = Ok (loop', cs).
Proof.
  induction 1 as [|[a ts] c l cs ((s & A & B) & C & D) _ IH]; intros loop; cbn [subcycles]; [eauto|].
  cbn [fst snd] in *. subst a ts. rewrite (sub_schemes_ok _ _ _ B). cbn [bind fst snd]. destruct (sc_schemes c) as [|t ts] eqn:E; [congruence|].
  destruct (IH (Some (sc_loop c))) as (loop' & ->). cbn [bind fst snd]. exists loop'. destruct c; cbn in *. now rewrite E.
Qed.
Definition all_schemes (gs : list group) : list str := flat_map (fun g => flat_map sc_schemes (g_subs g)) gs.
Definition all_subs (gs : list group) : list str :=
  flat_map (fun g => match g_kind g with
                     | GRegular => flat_map (fun t => map (fun s => t ++ L "_" ++ stage_short s) stages) (flat_map sc_schemes (g_subs g))
                     | GInit => map (fun t => t ++ L "_" ++ L "init") (flat_map sc_schemes (g_subs g))
                     | GFinalize => map (fun t => t ++ L "_" ++ L "finalize") (flat_map sc_schemes (g_subs g))
                     end) gs.
Lemma groups_ok l gs : Forall2 describes l gs -> forall loop, groups l loop = Ok (gs, all_schemes gs, all_subs gs).
Proof.
  induction 1 as [|e g l gs (N & D) _ IH]; intros loop; cbn [groups]; [reflexivity|].
  destruct (e_name e) as [n|] eqn:En; [|congruence]. destruct D as [(T & t & X & ->)|[(T & t & X & ->)|(T1 & T2 & E1 & K & F)]].
  - rewrite T, X. cbn [str_eqb orb]. rewrite IH. reflexivity.
  - rewrite T, X. change (str_eqb (L "finalize") (L "init") || str_eqb (L "finalize") (L "finalize")) with true. cbn iota. rewrite IH. reflexivity.
  - apply str_eqb_neq in T1, T2. rewrite T1, T2. cbn [orb]. destruct (subcycles_ok _ _ F loop) as (loop' & ->). cbn [bind fst snd]. rewrite IH. cbn [bind].
    injection E1 as ->. destruct g as [gn gk gsub]. cbn in *. subst gk. reflexivity.
Qed.
Lemma in_group_flat g t : In t (flat_map sc_schemes (g_subs g)) <-> in_group g t.
Proof. rewrite in_flat_map. reflexivity. Qed.
Lemma stages_all s : In s stages. Proof. destruct s; cbn; tauto. Qed.
Lemma recorded_ok n gs : recorded (mkPS n gs (dedup (all_schemes gs)) (dedup (all_subs gs))).
Proof.
  split; cbn [ps_schemes ps_subs].
  - intros t. rewrite in_dedup. unfold all_schemes, in_suite. cbn [ps_groups]. rewrite in_flat_map. split; intros (g & I & J); exists g; (split; [exact I|]); now apply in_group_flat.
  - intros x. rewrite in_dedup. unfold all_subs, in_regular. cbn [ps_groups]. rewrite in_flat_map. split.
    + intros (g & I & J). destruct (g_kind g) eqn:K.
      * left. apply in_flat_map in J as (t & It & J). apply in_map_iff in J as (s & <- & _). exists t, s. split; [|reflexivity]. exists g. rewrite in_group_flat in It. auto.
      * right. left. apply in_map_iff in J as (t & <- & J). exists g, t. rewrite in_group_flat in J. auto.
      * right. right. apply in_map_iff in J as (t & <- & J). exists g, t. rewrite in_group_flat in J. auto.
    + intros [(t & s & (g & I & K & J) & ->)|[(g & t & I & K & J & ->)|(g & t & I & K & J & ->)]]; exists g; (split; [exact I|]); rewrite K.
      * apply in_flat_map. exists t. rewrite in_group_flat. split; [exact J|]. apply in_map_iff. exists s. split; [reflexivity|apply stages_all].
      * apply in_map_iff. exists t. rewrite in_group_flat. auto.
      * apply in_map_iff. exists t. rewrite in_group_flat. auto.
Qed.
(* ---- the filter ---- *)
Lemma keep_var_ok suites vars (used : pvar -> Prop) :
  (forall v, In v vars -> exists s, subroutine_of (p_cont v) = Ok s /\ (existsb (fun u => mem (abbreviate s) (ps_subs u)) suites = true <-> used v)) ->
  exists b, keep_var vars suites = Ok b /\ (b = true <-> exists v, In v vars /\ used v).
Proof.
  induction vars as [|v vars IH]; intros H; cbn [keep_var].
  - exists false. split; [reflexivity|]. split; [discriminate|]. intros (v & [] & _).
  - destruct (H v (or_introl eq_refl)) as (s & -> & U). cbn [bind]. destruct (existsb _ suites) eqn:E.
    + exists true. split; [reflexivity|]. split; [|reflexivity]. intros _. exists v. split; [now left|now apply U].
    + destruct IH as (b & Eb & B); [intros w I; apply H; now right|]. exists b. split; [exact Eb|]. rewrite B. split.
      * intros (w & I & W). exists w. split; [now right|exact W].
      * intros (w & [<-|I] & W); [apply U in W; discriminate|eauto].
Qed.
Lemma filter_vars_ok m suites (used : pvar -> Prop) ks :
  (forall k, In k ks -> exists l, get k m = Some l) -> NoDup ks ->
  (forall k l v, In k ks -> get k m = Some l -> In v l -> exists s, subroutine_of (p_cont v) = Ok s /\ (existsb (fun u => mem (abbreviate s) (ps_subs u)) suites = true <-> used v)) ->
  exists out, filter_vars m suites ks = Ok out /\ (forall k, In k (map fst out) -> In k ks) /\
    forall k, In k ks -> (get k out = get k m /\ exists l v, get k m = Some l /\ In v l /\ used v) \/ (get k out = None /\ forall l v, get k m = Some l -> In v l -> ~ used v).
Proof.
  intros P N H. induction ks as [|k ks IH]; cbn [filter_vars].
  - exists []. split; [reflexivity|]. split; [intros k []|intros k []].
  - destruct (P k (or_introl eq_refl)) as (l & G). rewrite G.
    destruct (keep_var_ok suites l used) as (b & -> & B). { intros v I. apply (H k l v); auto. now left. }
    inversion N as [|? ? Nk N']; subst.
    destruct IH as (out & -> & K1 & K2); [intros; apply P; now right|exact N'|intros k' l' v I; apply H; now right|]. cbn [bind].
    exists (if b then (k, l) :: out else out). split; [reflexivity|].
    assert (GN : get k out = None) by (apply get_none; intros I; apply Nk, K1, I). split.
    + intros k'. destruct b; cbn [map fst In]; [intros [<-|I]; [now left|right; auto]|right; auto].
    + intros k' [<-|I].
      * destruct b.
        -- left. cbn [get]. rewrite str_eqb_refl. split; [now rewrite G|]. destruct (proj1 B eq_refl) as (v & I & U). exists l, v. auto.
        -- right. split; [exact GN|]. intros l' v G' I U. rewrite G in G'. injection G' as <-. assert (false = true) by (apply B; eauto). discriminate.
      * assert (NE : k' <> k) by (intros ->; auto). destruct b; [|auto]. cbn [get]. apply str_eqb_neq in NE. rewrite NE. auto.
Qed.
Lemma last_us (a b a' b' : str) : ~ In "_"%char b -> ~ In "_"%char b' -> a ++ L "_" ++ b = a' ++ L "_" ++ b' -> a = a' /\ b = b'.
Proof.
  change (L "_") with ["_"%char]. cbn [app]. intros N N' E. apply app_eq_app in E as (l & [[E1 E2]|[E1 E2]]).
  - destruct l as [|x l]; [rewrite app_nil_r in E1; injection E2 as ->; auto|]. injection E2 as <- E2. exfalso. apply N'. rewrite E2. apply in_or_app. right. now left.
  - destruct l as [|x l]; [rewrite app_nil_r in E1; injection E2 as ->; auto|]. injection E2 as <- E2. exfalso. apply N. rewrite E2. apply in_or_app. right. now left.
Qed.
Lemma short_no_us s : ~ In "_"%char (stage_short s).
Proof. destruct s; cbn; intuition discriminate. Qed.
Lemma name_no_space s : ~ In " "%char (stage_name s).
Proof. destruct s; cbn; intuition discriminate. Qed.
Lemma short_inj s s' : stage_short s = stage_short s' -> s = s'.
Proof. destruct s, s'; cbn; congruence. Qed.
(* which routine names lead to an entry of the suites *)
Lemma short_in_subs u t s : recorded u ->
  (In (t ++ L "_" ++ stage_short s) (ps_subs u) <-> in_regular u t \/ s = Init /\ exists g, In g (ps_groups u) /\ g_kind g = GInit /\ in_group g t).
Proof.
  intros (_ & R). rewrite R. split.
  - intros [(t' & s' & I & E)|[(g & t' & I & K & J & E)|(g & t' & I & K & J & E)]].
    + apply last_us in E as [-> _]; auto using short_no_us.
    + change (L "_init") with (L "_" ++ L "init") in E. apply last_us in E as [-> E]; [|apply short_no_us|exact no_us_init].
      right. split; [|eauto]. destruct s; try reflexivity; discriminate.
    + change (L "_finalize") with (L "_" ++ L "finalize") in E. apply last_us in E as [-> E]; [|apply short_no_us|exact no_us_finalize]. destruct s; discriminate.
  - intros [I|(-> & g & I & K & J)]; [left; eauto|]. right. left. exists g, t. auto.
Qed.
Lemma subs_exists (suites : list psuite) x : existsb (fun u => mem x (ps_subs u)) suites = true <-> exists u, In u suites /\ In x (ps_subs u).
Proof. rewrite existsb_exists. split; intros (u & I & M); exists u; (split; [exact I|]); now apply mem_in. Qed.
Lemma typedefs_ok d : forall acc ok, NoDup acc ->
  (forall v, In v d -> is_typedef v || is_kinddef v = true -> exists c, decode_container_as_dict (p_cont v) = Ok c) ->
  exists ok' out, typedefs d acc ok = Ok (ok', out) /\ NoDup out /\
   (forall f, In f out <-> In f acc \/ exists v c m, In v d /\ is_typedef v || is_kinddef v = true /\ decode_container_as_dict (p_cont v) = Ok c /\ get (L "MODULE") c = Some m /\ f = lower (m ++ L ".mod")) /\
   (ok' = false <-> ok = false \/ exists v c, In v d /\ is_typedef v || is_kinddef v = true /\ decode_container_as_dict (p_cont v) = Ok c /\ get (L "MODULE") c = None).
Proof.
  induction d as [|v d IH]; intros acc ok N H; cbn [typedefs].
  - exists ok, acc. repeat split; auto; [intros [?|(v & c & m & [] & _)]; auto|intros [?|(v & c & [] & _)]; auto].
  - assert (H' : forall w, In w d -> is_typedef w || is_kinddef w = true -> exists c, decode_container_as_dict (p_cont w) = Ok c) by (intros w I; apply H; now right).
    destruct (is_typedef v || is_kinddef v) eqn:T.
    + destruct (H v (or_introl eq_refl) T) as (c & C). rewrite C. cbn [bind]. destruct (get (L "MODULE") c) as [m|] eqn:G.
      * set (f := lower (m ++ L ".mod")). destruct (IH (if mem f acc then acc else acc ++ [f]) ok) as (ok' & out & E & N' & A & B); auto.
        { destruct (mem f acc) eqn:M; [exact N|]. apply mem_not in M. apply NoDup_snoc; auto. }
        exists ok', out. rewrite E. split; [reflexivity|]. split; [exact N'|]. split.
        -- intros x. rewrite A. split.
           ++ intros [I|(w & c' & m' & I & W)]; [|right; exists w, c', m'; split; [now right|exact W]].
              destruct (mem f acc) eqn:M; [now left|]. apply in_app_or in I as [I|[<-|[]]]; [now left|]. right. exists v, c, m. split; [now left|]. auto.
           ++ intros [I|(w & c' & m' & [<-|I] & W)].
              ** left. destruct (mem f acc); [exact I|]. apply in_or_app. now left.
              ** destruct W as (_ & C' & G' & ->). rewrite C in C'. injection C' as <-. rewrite G in G'. injection G' as <-. left.
                 destruct (mem f acc) eqn:M; [now apply mem_in in M|]. apply in_or_app. right. now left.
              ** right. exists w, c', m'. auto.
        -- rewrite B. split; intros [O|(w & c' & I & W)]; auto.
           ++ right. exists w, c'. split; [now right|exact W].
           ++ destruct I as [<-|I]; [|right; exists w, c'; auto]. destruct W as (_ & C' & G'). rewrite C in C'. injection C' as <-. congruence.
      * destruct (IH acc false) as (ok' & out & E & N' & A & B); auto. exists ok', out. rewrite E. split; [reflexivity|]. split; [exact N'|]. split.
        -- intros x. rewrite A. split; intros [I|(w & c' & m' & I & W)]; auto.
           ++ right. exists w, c', m'. split; [now right|exact W].
           ++ destruct I as [<-|I]; [|right; exists w, c', m'; auto]. destruct W as (_ & C' & G' & _). rewrite C in C'. injection C' as <-. congruence.
        -- split; [|intros _; apply B; now left]. intros _. right. exists v, c. split; [now left|]. auto.
    + destruct (IH acc ok) as (ok' & out & E & N' & A & B); auto. exists ok', out. rewrite E. split; [reflexivity|]. split; [exact N'|]. split.
      * intros x. rewrite A. split; intros [I|(w & c' & m' & I & W)]; auto.
        -- right. exists w, c', m'. split; [now right|exact W].
        -- destruct I as [<-|I]; [|right; exists w, c', m'; auto]. destruct W as (T' & _). congruence.
      * rewrite B. split; intros [O|(w & c' & I & W)]; auto.
        -- right. exists w, c'. split; [now right|exact W].
        -- destruct I as [<-|I]; [|right; exists w, c'; auto]. destruct W as (T' & _). congruence.
Qed.
Lemma groups_inv l : (forall e p, In e l -> e_tag e <> L "init" -> e_tag e <> L "finalize" -> In p (e_subs e) -> snd p <> []) ->
  forall loop gs sc su, groups l loop = Ok (gs, sc, su) -> Forall2 describes l gs /\ sc = all_schemes gs /\ su = all_subs gs.
Proof.
  induction l as [|e l IH]; intros NE loop gs sc su E; cbn [groups] in E; [injection E as <- <- <-; repeat split; constructor|].
  assert (NE' : forall e p, In e l -> e_tag e <> L "init" -> e_tag e <> L "finalize" -> In p (e_subs e) -> snd p <> []) by (intros e' p' I; apply NE; now right).
  destruct (e_name e) as [n|] eqn:En; [|discriminate].
  destruct (str_eqb (e_tag e) (L "init")) eqn:T1; cbn [orb] in E.
  - apply str_eqb_eq in T1. destruct (e_text e) as [t|] eqn:X; [|discriminate]. destruct (groups l loop) as [[[gs' sc'] su']|] eqn:G; [|discriminate]. cbn [bind] in E.
    injection E as <- <- <-. destruct (IH NE' _ _ _ _ G) as (F & -> & ->). rewrite T1. split; [|split; reflexivity]. constructor; [|exact F]. split; [congruence|]. left. eauto.
  - destruct (str_eqb (e_tag e) (L "finalize")) eqn:T2.
    + apply str_eqb_eq in T2. destruct (e_text e) as [t|] eqn:X; [|discriminate]. destruct (groups l loop) as [[[gs' sc'] su']|] eqn:G; [|discriminate]. cbn [bind] in E.
      injection E as <- <- <-. destruct (IH NE' _ _ _ _ G) as (F & -> & ->). rewrite T2. split; [|split; reflexivity]. constructor; [|exact F]. split; [congruence|]. right. left. eauto.
    + apply str_eqb_neq in T1, T2. destruct (subcycles (e_subs e) loop) as [[loop' cs]|] eqn:S1; [|discriminate]. cbn [bind fst snd] in E.
      destruct (groups l loop') as [[[gs' sc'] su']|] eqn:G; [|discriminate]. cbn [bind] in E. injection E as <- <- <-. destruct (IH NE' _ _ _ _ G) as (F & -> & ->).
      split; [|split; reflexivity]. constructor; [|exact F]. split; [congruence|]. right. right. cbn [g_name g_kind g_subs]. repeat split; auto.
      assert (N : forall p, In p (e_subs e) -> snd p <> []) by (intros p I; apply (NE e p); auto; now left).
      clear -S1 N. revert loop loop' cs S1. induction (e_subs e) as [|[a ts] r IHr]; intros loop loop' cs S1; cbn [subcycles] in S1; [injection S1 as _ <-; constructor|].
      destruct (sub_schemes a ts loop) as [[lp ss]|] eqn:SS; [|discriminate]. cbn [bind fst snd] in S1. destruct lp as [n|]; [|discriminate].
      destruct (subcycles r (Some n)) as [[l2 cs2]|] eqn:S2; [|discriminate]. cbn [bind fst snd] in S1. injection S1 as _ <-.
      constructor; [|eapply IHr; eauto; intros p I; apply N; now right]. cbn [fst snd sc_loop sc_schemes].
      assert (H : ts <> []) by (apply (N (a, ts)); now left).
      assert (K : forall ts loop lp ss, sub_schemes a ts loop = Ok (lp, ss) -> ts = map Some ss /\ (ts = [] /\ lp = loop \/ exists s n, a = Some s /\ py_int s = Some n /\ lp = Some n)).
      { clear. induction ts as [|[t|] ts IH]; intros loop lp ss E; cbn [sub_schemes] in E.
        - injection E as <- <-. split; [reflexivity|now left].
        - destruct (int_attr a) as [n|] eqn:A; [|discriminate]. cbn [bind] in E. destruct (sub_schemes a ts (Some n)) as [[lp2 s2]|] eqn:S; [|discriminate]. cbn [bind fst snd] in E. injection E as <- <-.
          destruct (IH _ _ _ S) as (-> & D). split; [reflexivity|]. right. unfold int_attr in A. destruct a as [s|]; [|discriminate]. destruct (py_int s) as [z|] eqn:Z; [|discriminate]. injection A as ->.
          destruct D as [[_ ->]|(s' & n' & E1 & E2 & ->)]; [exists s, n; auto|]. exists s', n'. auto.
        - destruct (int_attr a); discriminate. }
      destruct (K _ _ _ _ SS) as (-> & D). destruct D as [[D _]|(s & n' & -> & P & Q)]; [destruct ss; [congruence|discriminate]|]. injection Q as <-.
      repeat split; eauto. intros ->. now apply H.
Qed.
Lemma groups_noname l : (exists e, In e l /\ e_name e = None) -> forall loop x, groups l loop <> Ok x.
Proof.
  intros (e0 & I & N). induction l as [|e l IH]; [destruct I|]. intros loop x E. cbn [groups] in E. destruct (e_name e) as [n|] eqn:En; [|discriminate].
  destruct I as [->|I]; [congruence|]. destruct (str_eqb _ _ || str_eqb _ _).
  - destruct (e_text e); [|discriminate]. destruct (groups l loop) eqn:G; [|discriminate]. exact (IH I _ _ G).
  - destruct (subcycles _ _) as [p|]; [|discriminate]. cbn [bind] in E. destruct (groups l (fst p)) eqn:G; [|discriminate]. exact (IH I _ _ G).
Qed.
Lemma filter_get {A} (f : str -> bool) (d : list (str * A)) k : get k (List.filter (fun p => f (fst p)) d) = if f k then get k d else None.
Proof.
  induction d as [|[k' x] d IH]; cbn [List.filter get fst]; [now destruct (f k)|]. destruct (str_eqb k k') eqn:E.
  - apply str_eqb_eq in E as <-. destruct (f k) eqn:F; [cbn [get]; now rewrite str_eqb_refl|]. rewrite IH. rewrite ?F; reflexivity.
  - destruct (f k'); [cbn [get]; now rewrite E|]. exact IH.
Qed.
Lemma suites_exists (suites : list psuite) t : existsb (fun u => mem t (ps_schemes u)) suites = true <-> exists u, In u suites /\ In t (ps_schemes u).
Proof. rewrite existsb_exists. split; intros (u & I & M); exists u; (split; [exact I|]); now apply mem_in. Qed.
Lemma check_schemes_spec args suites : check_schemes args suites = true <-> forall u t, In u suites -> in_suite u t -> In t args.
Proof.
  unfold check_schemes, in_suite, in_group. rewrite forallb_forall. split.
  - intros H u t Iu (g & Ig & c & Ic & It). specialize (H u Iu). rewrite forallb_forall in H. specialize (H g Ig). rewrite forallb_forall in H. specialize (H c Ic).
    rewrite forallb_forall in H. now apply mem_in, H.
  - intros H u Iu. rewrite forallb_forall. intros g Ig. rewrite forallb_forall. intros c Ic. rewrite forallb_forall. intros t It. apply mem_in. apply (H u); eauto 8.
Qed.
Lemma in_files_fold (f : str) ts : forall (d : list (str * str)) t, get t (fold_left (fun d t => set t f d) ts d) = if mem t ts then Some f else get t d.
Proof.
  induction ts as [|x ts IH]; intros d t; cbn [fold_left mem]; [reflexivity|]. rewrite IH. cbn [existsb]. 
  change (mem t (x :: ts)) with (str_eqb t x || mem t ts). destruct (mem t ts); [now rewrite orb_true_r|]. rewrite orb_false_r. rewrite get_set. destruct (str_eqb t x) eqn:E; reflexivity.
Qed.
Lemma in_files_spec files t f : get t (in_files files) = Some f <-> last_file files t f.
Proof.
  unfold in_files. revert f. induction files as [|[g ts] files IH] using rev_ind; intros f; cbn [fold_left].
  - split; [discriminate|]. intros (a & ts & b & E & _). destruct a; discriminate.
  - rewrite fold_left_app. cbn [fold_left fst snd]. rewrite in_files_fold. destruct (mem t ts) eqn:M.
    + apply mem_in in M. split.
      * intros E. injection E as <-. exists files, ts, []. repeat split; auto.
      * intros (a & ts' & b & E & I & N). destruct b as [|p b] using rev_ind.
        -- apply app_inj_tail in E as [_ E]. congruence.
        -- clear IHb. rewrite app_comm_cons, app_assoc in E. apply app_inj_tail in E as [_ <-]. exfalso. apply (N (g, ts)); [apply in_or_app; right; now left|exact M].
    + apply mem_not in M. rewrite IH. split.
      * intros (a & ts' & b & -> & I & N). exists a, ts', (b ++ [(g, ts)]). rewrite <- app_assoc. repeat split; auto. intros p J. apply in_app_or in J as [J|[<-|[]]]; auto.
      * intros (a & ts' & b & E & I & N). destruct b as [|p b] using rev_ind.
        -- apply app_inj_tail in E as [_ E]. injection E as <- <-. contradiction.
        -- clear IHb. rewrite app_comm_cons, app_assoc in E. apply app_inj_tail in E as [-> _]. exists a, ts', b. repeat split; auto. intros q J. apply N. apply in_or_app. now left.
Qed.
Lemma nodup_set {A} k (v : A) l : NoDup (map fst l) -> NoDup (map fst (set k v l)).
Proof.
  intros N. destruct (in_dec (list_eq_dec Ascii.ascii_dec) k (map fst l)) as [I|I]; [now rewrite set_keys|].
  apply get_none in I. induction l as [|[k' x] l IH]; cbn in *; [constructor; [tauto|constructor]|].
  inversion N; subst. destruct (str_eqb k k') eqn:E; [discriminate|]. cbn. constructor; [|auto]. intros J. apply in_map_iff in J as ([k2 y] & <- & J).
  apply DictProofs.set_in in J as [J|J]; [injection J as -> _; now rewrite str_eqb_refl in E|]. apply H1. now apply (in_map fst) in J.
Qed.
