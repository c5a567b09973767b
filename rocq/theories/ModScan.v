(* ModScan.v: the scanner on the pieces of a module. *)
From Verif Require Import PyStr Base LineSpec LineModel LineProofs CheckModel CheckProofs CheckSpec CheckProps PhaseProps DeclModel DeclSpec DeclProofs DeclHeads DeclBody DeclProps DeclMoreProps ModModel ModSpec ModProofs.
From Coq Require Import Lia Permutation.
Open Scope nat_scope.
Open Scope list_scope.

Lemma blank_nil : blank []. Proof. reflexivity. Qed.
#[local] Hint Resolve blank_nil : core.

(* ---- declarations ---- *)
Definition first_words : list str := map L ["integer"; "real"; "logical"; "complex"; "double"; "type"; "class"; "character"]%string.
Lemma head_word h T K ddt : head h T K ddt -> exists t w r, h = t ++ r /\ spells t w /\ In w first_words.
Proof.
  assert (I : forall t, intrinsic_name t -> exists t1 w r, t = t1 ++ r /\ spells t1 w /\ In w first_words).
  { intros t [H|[H|[H|[H|(d & w & p & -> & H & _)]]]]; try (exists t, (lower t), []; rewrite app_nil_r; rewrite H; split; [reflexivity|split; [exact H|cbn; tauto]]).
    exists d, (L "double"), (w ++ p). split; auto. split; auto. cbn. tauto. }
  intros H. destruct H.
  - now apply I.
  - destruct (I t H) as (t1 & w1 & r & -> & X). exists t1, w1. eexists. split; [now rewrite <- app_assoc|exact X].
  - destruct (I t H) as (t1 & w1 & r & -> & X). exists t1, w1. eexists. split; [now rewrite <- app_assoc|exact X].
  - exists t, (lower t). eexists. split; [reflexivity|]. split; [reflexivity|]. destruct H as [H|H]; rewrite H; cbn; tauto.
  - exists t, (L "character"). eexists. split; [reflexivity|]. split; auto. cbn; tauto.
  - exists t, (L "character"). eexists. split; [reflexivity|]. split; auto. cbn; tauto.
Qed.
Lemma word_facts w0 t r w : blank w0 -> spells t w -> In w first_words ->
  table_match (w0 ++ t ++ r) = None /\ comment_stmt (w0 ++ t ++ r) = Ok false /\ endmod_match (w0 ++ t ++ r) = None /\ endsub_match (w0 ++ t ++ r) = false /\
  endtype_match (w0 ++ t ++ r) = false /\ sub_match (w0 ++ t ++ r) = None /\ contains_match (w0 ++ t ++ r) = false.
Proof.
  intros W H I. unfold first_words in I. cbn [map] in I.
  repeat (destruct I as [<-|I]; [destruct (word_line w0 t r _ _ W H eq_refl) as [A B]; destruct (word_endmod w0 t r _ _ W H eq_refl eq_refl) as (C & D & E);
    pose proof (word_sub w0 t r _ _ W H eq_refl eq_refl eq_refl eq_refl eq_refl) as F; pose proof (word_contains w0 t r _ _ W H eq_refl eq_refl) as G; auto 10|]). destruct I.
Qed.
Lemma decl_facts h T K ddt al el s : head h T K ddt -> declaration h al el s ->
  table_match s = None /\ comment_stmt s = Ok false /\ endmod_match s = None /\ endsub_match s = false /\ endtype_match s = false /\ sub_match s = None /\ contains_match s = false.
Proof.
  intros H (w0 & w1 & w2 & w3 & colons & c & -> & W0 & _). destruct (head_word h T K ddt H) as (t & w & r & -> & S & I). rewrite <- app_assoc. now apply (word_facts w0 t _ w).
Qed.
Lemma intent_there h al el s : declaration h al el s -> (exists a, In a al /\ named "intent" a = true) -> dummy_match s = true.
Proof.
  intros (w0 & w1 & w2 & w3 & colons & c & -> & W0 & W1 & W2 & W3 & C & CO & HA & _) (a & I & N). apply dummy_yes. destruct (HA a I) as (B1 & B2 & B3 & _ & _ & AR).
  assert (NA : a_arg a <> None) by (apply AR; auto). destruct (a_arg a) as [x|] eqn:EA; [|easy]. apply in_split in I as (l1 & l2 & ->). unfold attrs_text. rewrite map_app, concat_app. cbn [map List.concat]. unfold attr_text at 2. rewrite EA.
  unfold named in N. apply str_eqb_eq in N.
  set (A1 := List.concat (map (fun a => L "," ++ attr_text a) l1)). set (A2 := List.concat (map (fun a => L "," ++ attr_text a) l2)). set (E := colons ++ w2 ++ ents_text el ++ w3 ++ c).
  exists (w0 ++ h ++ w1 ++ A1), (a_before a), (a_name a), (a_gap a), (x ++ L ")" ++ a_after a ++ A2 ++ E). split; [|auto]. now rewrite <- !app_assoc.
Qed.
Lemma begins_differ w w0 t r x k : blank w0 -> spells t (x :: k) -> is_space x = false -> differ w (x :: k) = true ->
  match w with c :: _ => is_space c = false | [] => False end -> ~ begins w (w0 ++ t ++ r).
Proof.
  intros W H X D F (a & u & q & E & A & U). destruct w as [|c w]; [easy|]. assert (E2 : lstrip (w0 ++ t ++ r) = lstrip (a ++ u ++ q)) by now rewrite E.
  rewrite (ls_word w0 t r _ _ W H X), (ls_word a u q _ _ A U F) in E2. assert (Y := aw_yes u (c :: w) q U). rewrite <- E2 in Y. rewrite aw_differ in Y; [discriminate|]. unfold spells in H. now rewrite H.
Qed.
Lemma no_type_none s : no_type s -> type_def_line s = Ok None.
Proof. intros [N|(w0 & t & w & a & n & r & E & W0 & T & W & A & I)]; [now apply C115_other_statements|]. now apply (C115_declarations_are_not_definitions w0 t w a n r). Qed.
Lemma decl_no_type h T K ddt al el s : head h T K ddt -> declaration h al el s -> no_type s.
Proof.
  intros H (w0 & w1 & w2 & w3 & colons & c & -> & W0 & _).
  assert (I : forall t r, intrinsic_name t -> no_type (w0 ++ t ++ r)).
  { intros t r [X|[X|[X|[X|(d & w & p & -> & X & _)]]]]; left; rewrite <- ?app_assoc; now apply (begins_differ (L "type") w0 _ _ _ _ W0 X). }
  destruct H; rewrite <- ?app_assoc.
  - now apply I.
  - now apply I.
  - now apply I.
  - destruct H as [H|H].
    + right. do 6 eexists. split; [reflexivity|]. auto.
    + left. now apply (begins_differ (L "type") w0 _ _ _ _ W0 H).
  - left. now apply (begins_differ (L "type") w0 _ _ _ _ W0 H).
  - left. now apply (begins_differ (L "type") w0 _ _ _ _ W0 H).
Qed.
Lemma inside_facts s : inside s -> table_match s = None /\ endmod_match s = None.
Proof. intros [A B]. split; [now apply table_no|now apply endmod_no]. Qed.
Lemma contains_facts c : begins (L "contains") c -> contains_match c = true /\ table_match c = None /\ endmod_match c = None /\ endsub_match c = false /\ endtype_match c = false /\ sub_match c = None /\ type_def_line c = Ok None.
Proof.
  intros B. split; [now apply contains_yes|]. destruct B as (w & t & r & -> & W & T). destruct (word_line w t r _ _ W T eq_refl) as [A _]. destruct (word_endmod w t r _ _ W T eq_refl eq_refl) as (D & E & F).
  pose proof (word_sub w t r _ _ W T eq_refl eq_refl eq_refl eq_refl eq_refl) as G. repeat (split; auto). apply C115_other_statements. now apply (begins_differ (L "type") w t r _ _ W T).
Qed.
Lemma routine_facts n args s : routine n args s -> table_match s = None /\ endmod_match s = None /\ endsub_match s = false /\ contains_match s = false.
Proof.
  intros (w0 & p & w1 & k & w2 & r & -> & W0 & P & W1 & K & _).
  destruct P as [->|[P|[P|P]]].
  1: { cbn [app]. rewrite app_assoc. assert (W : blank (w0 ++ w1)) by (apply forallb_app_iff; auto). destruct (word_line (w0 ++ w1) k (w2 ++ n ++ r) _ _ W K eq_refl) as [A _]. destruct (word_endmod (w0 ++ w1) k (w2 ++ n ++ r) _ _ W K eq_refl eq_refl) as (D & E & F). pose proof (word_contains (w0 ++ w1) k (w2 ++ n ++ r) _ _ W K eq_refl eq_refl). auto. }
  all: destruct (word_line w0 p (w1 ++ k ++ w2 ++ n ++ r) _ _ W0 P eq_refl) as [A _]; destruct (word_endmod w0 p (w1 ++ k ++ w2 ++ n ++ r) _ _ W0 P eq_refl eq_refl) as (D & E & F); pose proof (word_contains w0 p (w1 ++ k ++ w2 ++ n ++ r) _ _ W0 P eq_refl eq_refl); auto.
Qed.
Lemma end_facts word e : end_of word e -> match word with c :: _ => is_space c = false | [] => False end ->
  table_match e = None /\ contains_match e = false /\ (differ (L "module") word = true -> endmod_match e = None).
Proof.
  intros (w0 & k & w1 & t & r & -> & W0 & K & W1 & T) F. destruct (word_line w0 k (w1 ++ t ++ r) _ _ W0 K eq_refl) as [A _]. pose proof (word_contains w0 k (w1 ++ t ++ r) _ _ W0 K eq_refl eq_refl) as B. split; auto. split; auto.
  intros D. unfold endmod_match, after_end. rewrite (ls_word w0 k (w1 ++ t ++ r) _ _ W0 K eq_refl). rewrite (aw_yes _ _ _ K). destruct word as [|x w]; [easy|]. rewrite (ls_word w1 t r _ _ W1 T F). rewrite aw_differ; [reflexivity|]. unfold spells in T. now rewrite T.
Qed.
Lemma end_sub_routine e : end_of (L "subroutine") e -> sub_match e = None.
Proof.
  intros (w0 & k & w1 & t & r & -> & W0 & K & W1 & T). now apply (word_sub w0 k (w1 ++ t ++ r) _ _ W0 K).
Qed.
Lemma document_facts n s : documents n s -> contains_match s = false /\ type_def_line s = Ok None /\ endmod_match s = None.
Proof.
  intros (w0 & m & w1 & sec & w2 & a & r & -> & W0 & _).
  assert (E : forall q, lstrip (w0 ++ L "!" ++ q) = L "!" ++ q) by (intros q; destruct (blank_head w0 (L "!" ++ q) W0 eq_refl) as [_ X]; exact X).
  assert (B : forall w, (match w with c :: _ => is_alpha c = true | [] => False end) -> forall q, ~ begins w (w0 ++ L "!" ++ q)).
  { intros w F q (a' & u & z & E1 & A & U). destruct w as [|c w]; [easy|]. assert (X := f_equal lstrip E1). rewrite E, (ls_word a' u z _ _ A U (alpha_not_space c F)) in X. apply spells_cons in U as (d & u' & -> & <- & _). injection X as <- _. discriminate. }
  split; [apply contains_no; now apply B|]. split; [apply C115_other_statements; now apply B|]. unfold endmod_match, after_end. rewrite E. reflexivity.
Qed.

(* ---- tokens ---- *)
Definition toks (ls : list str) : list tok := tokens (map (fun s => [s]) ls).
Lemma toks_cons s ls : toks (s :: ls) = St s :: NL :: toks ls. Proof. reflexivity. Qed.
Lemma toks_app a b : toks (a ++ b) = toks a ++ toks b.
Proof. unfold toks, tokens. now rewrite !map_app, concat_app. Qed.

(* ---- variables ---- *)
Definition key (v : dvar) : str := lower (dv_name v).
Lemma add_ok l : forall vs, distinct (vs ++ l) -> add_vars vs l = Ok (vs ++ l).
Proof.
  induction l as [|v l IH]; intros vs D; cbn [add_vars]; [now rewrite app_nil_r|].
  assert (E : existsb (fun x => same_name (dv_name x) (dv_name v)) vs = false).
  { destruct (existsb (fun x => same_name (dv_name x) (dv_name v)) vs) eqn:E; auto. exfalso. apply existsb_exists in E as (x & I & E). unfold same_name in E. apply str_eqb_eq in E.
    unfold distinct in D. rewrite map_app in D. cbn [map] in D. apply NoDup_remove_2 in D. apply D. apply in_app_iff. left. rewrite <- E. apply (in_map (fun v => lower (dv_name v))). exact I. }
  rewrite E. rewrite IH; rewrite <- app_assoc; auto.
Qed.
Lemma perm_unique (l l' : list dvar) : map key l = map key l' -> Permutation l l' -> NoDup (map key l) -> l = l'.
Proof.
  revert l'. induction l as [|x l IH]; intros [|y l'] E P N; try discriminate; auto. cbn in E. injection E as E1 E2. cbn in N. inversion_clear N as [|? ? N1 N2].
  assert (X : x = y).
  { assert (I : In y (x :: l)) by (apply (Permutation_in y (Permutation_sym P)); now left). destruct I as [|I]; auto. exfalso. apply N1. rewrite E1. now apply in_map. }
  subst y. f_equal. apply IH; auto. now apply (Permutation_cons_inv P).
Qed.
Lemma says_fun T K ddt al i e v v' : says T K ddt al i e v -> says T K ddt al i e v' -> v = v'.
Proof.
  intros (A1 & A2 & A3 & A4 & A5 & A6 & A7 & A8) (B1 & B2 & B3 & B4 & B5 & B6 & B7 & B8). destruct v as [a b c d o l i' m], v' as [a' b' c' d' o' l' i'' m'].
  cbn in *. assert (o = o') by (destruct o, o'; auto; exfalso; intuition discriminate). assert (l = l') by (destruct l, l'; auto; exfalso; intuition discriminate). congruence.
Qed.
Lemma says_list T K ddt al i el vs vs' : Forall2 (says T K ddt al i) el vs -> Forall2 (says T K ddt al i) el vs' -> vs = vs'.
Proof. intros H. revert vs'. induction H as [|e v el vs S H IH]; intros vs' H'; inversion H'; subst; auto. f_equal; [now apply (says_fun T K ddt al i e)|auto]. Qed.
Lemma scheme_decl logger h T K ddt al el s vs : head h T K ddt -> declaration h al el s ->
  Forall2 (says T K ddt al (option_map (fun x => lower (strip x)) (last_arg "intent" al))) el vs -> parse_fortran_var_decl true logger s = Ok vs.
Proof. intros H D F. destruct (C113_declaration logger h T K ddt al el s H D) as (vs' & -> & F'). f_equal. now apply (says_list _ _ _ _ _ _ _ _ F' F). Qed.
Lemma data_decl logger h T K ddt al el s vs : head h T K ddt -> declaration h al el s -> (forall a, In a al -> named "intent" a = false) ->
  Forall2 (says T K ddt al None) el vs -> parse_fortran_var_decl false logger s = Ok vs.
Proof. intros H D N F. destruct (C113_no_intent_outside_schemes logger h T K ddt al el s H D) as [_ X]. destruct X as (vs' & -> & F'); [auto|]. f_equal. now apply (says_list _ _ _ _ _ _ _ _ F' F). Qed.

(* ---- dummy arguments ---- *)
Notation dict := (list (str * option dvar)).
Lemma dummy_ok l : forall d : dict, Forall (fun a => a <> []) l -> (NoDup (map fst d ++ l) -> dummy_dict l d = Ok (d ++ map (fun a => (a, None)) l)) /\
  (NoDup (map fst d) -> ~ NoDup (map fst d ++ l) -> exists m, dummy_dict l d = Raise m).
Proof.
  induction l as [|a l IH]; intros d F; cbn [dummy_dict map].
  - rewrite !app_nil_r. split; [auto|intros X Y; now destruct Y].
  - inversion_clear F as [|? ? NA F']. destruct a as [|c a]; [easy|]. cbn [is_nil]. destruct (existsb (fun kv : str * option dvar => str_eqb (fst kv) (c :: a)) d) eqn:E.
    + split; [|eauto]. intros N. exfalso. apply existsb_exists in E as (kv & I & E). apply str_eqb_eq in E. apply NoDup_remove_2 in N. apply N, in_app_iff. left. rewrite <- E. now apply in_map.
    + destruct (IH (d ++ [(c :: a, None)]) F') as [IH1 IH2]. rewrite map_app in IH1, IH2. cbn [map fst] in IH1, IH2. rewrite <- !app_assoc in IH1, IH2. cbn [app] in IH1, IH2. split.
      * intros N. etransitivity; [exact (IH1 N)|]. now rewrite <- app_assoc.
      * intros N1 N2. apply IH2; auto. apply NoDup_snoc; auto. intros I. apply in_map_iff in I as ((k & o) & EK & I). cbn in EK. subst k.
        assert (X : existsb (fun kv : str * option dvar => str_eqb (fst kv) (c :: a)) d = true) by (apply existsb_exists; eexists; split; [exact I|apply str_eqb_refl]). congruence.
Qed.
(* the value of a name after the declarations *)
Definition given (vs : list dvar) (n : str) : option dvar := List.find (fun v => str_eqb (key v) n) vs.
Definition update (vs : list dvar) (d : dict) : dict := map (fun kv => match given vs (fst kv) with Some v => (fst kv, Some v) | None => kv end) d.
Definition free (d : dict) (n : str) : Prop := In (n, None) d.
Lemma find_key (d : dict) n : NoDup (map fst d) -> forall o, In (n, o) d -> List.find (fun kv => str_eqb (fst kv) n) d = Some (n, o).
Proof.
  induction d as [|[k p] d IH]; intros N o I; [easy|]. cbn [map fst] in N. inversion_clear N as [|? ? N1 N2]. cbn [List.find fst]. destruct I as [[= -> ->]|I]; [now rewrite str_eqb_refl|].
  destruct (str_eqb k n) eqn:E; [|auto]. apply str_eqb_eq in E as ->. exfalso. apply N1. apply (in_map fst) in I. exact I.
Qed.
Lemma find_nokey (d : dict) n : ~ In n (map fst d) -> List.find (fun kv => str_eqb (fst kv) n) d = None.
Proof. induction d as [|[k p] d IH]; cbn; intros N; auto. destruct (str_eqb k n) eqn:E; [apply str_eqb_eq in E as ->; exfalso; auto|auto]. Qed.
Lemma set_keys (d : dict) n v : map fst (map (fun kv => if str_eqb (fst kv) n then (n, Some v) else kv) d : dict) = map fst d.
Proof. rewrite map_map. apply map_ext. intros [k o]. cbn. destruct (str_eqb k n) eqn:E; auto. now apply str_eqb_eq in E. Qed.
Lemma declare_iff vs : forall d : dict, NoDup (map fst d) ->
  (NoDup (map key vs) -> (forall v, In v vs -> free d (key v)) -> declare d vs = Ok (update vs d)) /\
  (forall d', declare d vs = Ok d' -> NoDup (map key vs) /\ (forall v, In v vs -> free d (key v))).
Proof.
  induction vs as [|v vs IH]; intros d N; cbn [declare].
  - split; [intros _ _; f_equal; unfold update; cbn; symmetry; etransitivity; [|apply map_id]; apply map_ext; now intros []|]. intros d' _. split; [constructor|easy].
  - cbv zeta. fold (key v). set (d1 := map (fun kv => if str_eqb (fst kv) (key v) then (key v, Some v) else kv) d : dict).
    assert (N1 : NoDup (map fst d1)) by (unfold d1; now rewrite set_keys). destruct (IH d1 N1) as [IH1 IH2].
    assert (FR : forall x, free d1 x <-> free d x /\ x <> key v).
    { intros x. unfold free, d1. rewrite in_map_iff. split.
      - intros ((k & o) & E & I). cbn in E. destruct (str_eqb k (key v)) eqn:EK; [discriminate|]. injection E as -> ->. split; auto. intros ->. now rewrite str_eqb_refl in EK.
      - intros [I NE]. exists (x, None). cbn. destruct (str_eqb x (key v)) eqn:EK; [apply str_eqb_eq in EK; easy|auto]. }
    split.
    + intros NV FV. cbn [map] in NV. inversion_clear NV as [|? ? NV1 NV2]. rewrite (find_key d (key v) N None) by (apply FV; now left). fold d1. rewrite IH1; auto.
      * f_equal. unfold update, d1. rewrite map_map. apply map_ext. intros [k o]. cbn [fst]. unfold given. cbn [List.find]. destruct (str_eqb k (key v)) eqn:E.
        -- apply str_eqb_eq in E as ->. cbn [fst]. rewrite str_eqb_refl.
           assert (X : List.find (fun v0 => str_eqb (key v0) (key v)) vs = None).
           { destruct (List.find (fun v0 => str_eqb (key v0) (key v)) vs) eqn:F; auto. apply find_some in F as [I F]. apply str_eqb_eq in F. exfalso. apply NV1. rewrite <- F. now apply in_map. }
           now rewrite X.
        -- cbn [fst]. destruct (str_eqb (key v) k) eqn:E2; auto. apply str_eqb_eq in E2. subst k. now rewrite str_eqb_refl in E.
      * intros u I. apply FR. split; [apply FV; now right|]. intros E. apply NV1. rewrite <- E. now apply in_map.
    + intros d' H. destruct (List.find (fun kv => str_eqb (fst kv) (key v)) d) as [[k o]|] eqn:F; [|discriminate]. destruct o; [discriminate|]. apply find_some in F as [I F]. cbn in F. apply str_eqb_eq in F as ->. fold d1 in H.
      destruct (IH2 d' H) as [H1 H2]. split.
      * cbn [map]. constructor; auto. intros X. apply in_map_iff in X as (u & E & I'). apply H2 in I'. apply FR in I'. now rewrite E in I'.
      * intros u [<-|I']; auto. apply H2 in I'. now apply FR in I'.
Qed.
Lemma all_declared_some (d : dict) l : all_declared d = Some l -> map (fun kv => snd kv) d = map Some l.
Proof. revert l. induction d as [|[k [v|]] d IH]; intros l; cbn; [intros [= <-]; auto| |discriminate]. destruct (all_declared d) as [l1|]; [|discriminate]. intros [= <-]. cbn. f_equal. now apply IH. Qed.
Lemma all_declared_yes (d : dict) l : map (fun kv => snd kv) d = map Some l -> all_declared d = Some l.
Proof. revert l. induction d as [|[k o] d IH]; intros [|v l]; cbn; try discriminate; auto. intros [= -> E]. now rewrite (IH l E). Qed.
(* the dictionary of the arguments, after the declarations *)
Lemma declare_args (names : list str) (vs : list dvar) : NoDup names ->
  (forall l, Permutation l vs -> map key l = names -> exists d, declare (map (fun a => (a, None)) names) vs = Ok d /\ all_declared d = Some l) /\
  (forall d l, declare (map (fun a => (a, None)) names) vs = Ok d -> all_declared d = Some l -> Permutation l vs /\ map key l = names).
Proof.
  intros N. assert (K : map fst (map (fun a => (a, None)) names : dict) = names) by (rewrite map_map; cbn; apply map_id).
  assert (FR : forall x, free (map (fun a => (a, None)) names) x <-> In x names) by (intros x; unfold free; rewrite in_map_iff; split; [intros (a & [= ->] & I); auto|eauto]).
  destruct (declare_iff vs (map (fun a => (a, None)) names)) as [D1 D2]; [now rewrite K|]. split.
  - intros l P E. assert (NV : NoDup (map key vs)) by (apply (Permutation_NoDup (l := map key l)); [now apply Permutation_map|now rewrite E]).
    assert (FV : forall v, In v vs -> free (map (fun a => (a, None)) names) (key v)) by (intros v I; apply FR; rewrite <- E; apply in_map; now apply (Permutation_in v (Permutation_sym P))).
    eexists. split; [now apply D1|]. apply all_declared_yes. unfold update. rewrite !map_map. rewrite <- E. rewrite map_map. apply map_ext_in. intros v I. cbn [fst].
    assert (G : given vs (key v) = Some v).
    { unfold given. destruct (List.find (fun v0 => str_eqb (key v0) (key v)) vs) as [u|] eqn:F.
      - apply find_some in F as [I2 F]. apply str_eqb_eq in F. f_equal. apply (Permutation_in u (Permutation_sym P)) in I2. clear - N E I I2 F. subst names.
        induction l as [|x l IH]; [easy|]. cbn in N. inversion_clear N as [|? ? N1 N2]. destruct I as [->|I], I2 as [->|I2]; auto; exfalso; apply N1; [rewrite <- F|rewrite F]; now apply in_map.
      - apply List.find_none with (x := v) in F; [now rewrite str_eqb_refl in F|now apply (Permutation_in v P)]. }
    now rewrite G.
  - intros d l E A. destruct (D2 d E) as [NV FV]. rewrite (D1 NV FV) in E. injection E as <-. apply all_declared_some in A. unfold update in A. rewrite !map_map in A. cbn [fst] in A.
    assert (A' : map (given vs) names = map Some l).
    { rewrite <- A. apply map_ext. intros a. now destruct (given vs a). }
    assert (KL : map key l = names).
    { clear - A'. revert l A'. induction names as [|n names IH]; intros [|v l]; cbn; try discriminate; auto. intros [= E1 E2]. f_equal; [|now apply IH]. apply find_some in E1 as [_ E1]. now apply str_eqb_eq in E1. }
    split; auto. apply NoDup_Permutation; [apply (NoDup_map_inv key); now rewrite KL|now apply (NoDup_map_inv key)|]. intros v. split.
    + intros I. assert (X : In (Some v) (map (given vs) names)) by (rewrite A'; now apply in_map). apply in_map_iff in X as (n & G & _). now apply find_some in G as [G _].
    + intros I. assert (X : In (key v) names) by now apply FR, FV. assert (Y : In (given vs (key v)) (map Some l)) by (rewrite <- A'; now apply in_map). apply in_map_iff in Y as (u & EU & IU).
      symmetry in EU. apply find_some in EU as [I2 EU]. apply str_eqb_eq in EU. assert (v = u); [|now subst].
      clear - NV I I2 EU. induction vs as [|x vs IH]; [easy|]. cbn in NV. inversion_clear NV as [|? ? N1 N2]. destruct I as [->|I], I2 as [->|I2]; auto; exfalso; apply N1; [rewrite <- EU|rewrite EU]; now apply in_map.
Qed.
