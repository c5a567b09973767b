(* DeclBody.v: attributes and entities of a declaration. *)
From Verif Require Import PyStr Base LineSpec LineModel LineProofs CheckModel CheckProofs DeclModel DeclSpec DeclProofs DeclHeads.
From Coq Require Import Lia.
Open Scope nat_scope.
Open Scope list_scope.

(* ---- comments ---- *)
Lemma upto_at c (a b : str) : ~ In c a -> upto_c c (a ++ c :: b) = a.
Proof.
  unfold upto_c. induction a as [|d a IH]; cbn; intros N; [now rewrite Ascii.eqb_refl|].
  destruct (Ascii.eqb_spec d c) as [E|]; [exfalso; auto|]. cbn. now rewrite IH by auto.
Qed.
Lemma strip_in c s : In c (strip s) -> In c s.
Proof.
  unfold strip, rstrip, lstrip. intros I. apply in_rev in I.
  destruct (dropwhile_app is_space (rev (dropwhile is_space s))) as (p & E & _). assert (J : In c (rev (dropwhile is_space s))) by (rewrite E; apply in_app_iff; auto).
  apply in_rev in J. destruct (dropwhile_app is_space s) as (q & E' & _). rewrite E'. apply in_app_iff. auto.
Qed.
Lemma comment_cut body c : ~ In "!"%char body -> comment c ->
  (if has_c "!" (strip (body ++ c)) then rstrip (upto_c "!" (strip (body ++ c))) else strip (body ++ c)) = strip body.
Proof.
  intros N [->|(t & ->)].
  - rewrite app_nil_r. assert (H : has_c "!" (strip body) = false) by (apply has_c_not; intros I; now apply strip_in in I). now rewrite H.
  - assert (E : strip (body ++ L "!" ++ t) = lstrip body ++ "!"%char :: rstrip t).
    { unfold strip. assert (X : lstrip (body ++ L "!" ++ t) = lstrip body ++ "!"%char :: t).
      { clear N. induction body as [|d body IH]; [reflexivity|]. unfold lstrip in *. cbn. destruct (is_space d); auto. }
      rewrite X. now apply rstrip_after. }
    rewrite E. assert (H : has_c "!" (lstrip body ++ "!"%char :: rstrip t) = true) by (apply has_c_in, in_app_iff; right; now left).
    rewrite H, upto_at; [reflexivity|]. intros I. apply N. unfold lstrip in I. destruct (dropwhile_app is_space body) as (q & E' & _). rewrite E'. apply in_app_iff. auto.
Qed.

(* ---- reassembling lists ---- *)
Lemma glue_ne rest : forall var l, glue var rest = Ok l -> l <> [].
Proof.
  induction rest as [|p r IH]; intros var l; cbn; destruct (same_count var).
  - now intros [= <-].
  - discriminate.
  - destruct (glue p r); [now intros [= <-]|discriminate].
  - apply IH.
Qed.
Lemma blank_sum w : blank w -> paren_sum w = 0%Z.
Proof.
  unfold blank. induction w as [|c w IH]; cbn; auto. intros H. apply andb_true_iff in H as [C H]. rewrite IH by auto.
  destruct (Ascii.eqb_spec c "("); [subst; discriminate|]. destruct (Ascii.eqb_spec c ")"); [subst; discriminate|]. reflexivity.
Qed.
Lemma same_sum_eq a b : paren_sum a = paren_sum b -> same_count a = same_count b.
Proof. intros E. destruct (same_count a) eqn:A, (same_count b) eqn:B; auto; [apply same_sum in A; apply same_sum_f in B|apply same_sum in B; apply same_sum_f in A]; congruence. Qed.
Definition on_first (f : str -> str) (l : list str) : list str := match l with [] => [] | x :: r => f x :: r end.
Fixpoint on_last (f : str -> str) (l : list str) : list str :=
  match l with [] => [] | x :: r => match r with [] => [f x] | _ => x :: on_last f r end end.
Definition rmap {A B} (f : A -> B) (r : res A) : res B := match r with Ok x => Ok (f x) | Raise e => Raise e end.
Lemma glue_pre w : blank w -> forall rest var, glue (w ++ var) rest = rmap (on_first (app w)) (glue var rest).
Proof.
  intros W. induction rest as [|p r IH]; intros var; cbn; rewrite (same_sum_eq (w ++ var) var) by (rewrite sum_app, blank_sum; auto); destruct (same_count var); auto.
  - destruct (glue p r); reflexivity.
  - change (((w ++ var) ++ ","%char :: p)) with ((w ++ var) ++ L "," ++ p). rewrite <- app_assoc. apply IH.
Qed.
Definition glue_l (l : list str) : res (list str) := match l with [] => Ok [] | p :: r => glue p r end.
Lemma glue_post v : blank v -> forall rest var, glue_l (on_last (fun x => x ++ v) (var :: rest)) = rmap (on_last (fun x => x ++ v)) (glue var rest).
Proof.
  intros V. induction rest as [|p r IH]; intros var.
  - cbn [on_last glue_l glue]. rewrite (same_sum_eq (var ++ v) var) by (rewrite sum_app, (blank_sum v); auto; lia). now destruct (same_count var).
  - change (on_last (fun x => x ++ v) (var :: p :: r)) with (var :: on_last (fun x => x ++ v) (p :: r)). cbn [glue_l glue].
    assert (E : exists p' r', on_last (fun x => x ++ v) (p :: r) = p' :: r') by (destruct r; cbn; eauto). destruct E as (p' & r' & E). rewrite E. cbn [glue].
    destruct (same_count var).
    + specialize (IH p). rewrite E in IH. cbn [glue_l] in IH. rewrite IH. destruct (glue p r) as [l|] eqn:G; [|reflexivity]. cbn.
      destruct l; [now apply glue_ne in G|reflexivity].
    + specialize (IH (var ++ L "," ++ p)). assert (E2 : on_last (fun x => x ++ v) ((var ++ L "," ++ p) :: r) = (var ++ L "," ++ p') :: r').
      { destruct r as [|q r]; cbn in E |- *; injection E as <- <-; [|reflexivity]. f_equal. rewrite <- app_assoc. reflexivity. }
      etransitivity; [|exact IH]. symmetry. exact (f_equal glue_l E2).
Qed.
Lemma split_pre sep w s : ~ In sep w -> split_on sep (w ++ s) = on_first (app w) (split_on sep s).
Proof.
  intros N. destruct (split_on sep s) as [|p r] eqn:E; [now apply split_on_nonempty in E|]. induction w as [|c w IH]; [exact E|].
  cbn [app split_on]. rewrite IH by (intros I; apply N; now right). cbn. destruct (Ascii.eqb_spec c sep) as [->|]; [exfalso; apply N; now left|reflexivity].
Qed.
Lemma split_post sep s v : ~ In sep v -> split_on sep (s ++ v) = on_last (fun x => x ++ v) (split_on sep s).
Proof.
  intros N. induction s as [|c s IH]; cbn [app split_on].
  - cbn. now apply split_none.
  - rewrite IH. destruct (split_on sep s) as [|p r] eqn:E; [now apply split_on_nonempty in E|]. cbn. destruct (Ascii.eqb c sep), r; reflexivity.
Qed.
Lemma keep_first w l : blank w -> keep (on_first (app w) l) = keep l.
Proof. intros W. destruct l as [|x l]; auto. unfold keep. cbn [on_first map]. now rewrite (strip_blank_l w x W). Qed.
Lemma keep_last v l : blank v -> keep (on_last (fun x => x ++ v) l) = keep l.
Proof.
  intros V. unfold keep. f_equal. induction l as [|x l IH]; auto. destruct l as [|y l]; [cbn [on_last map]; now rewrite (strip_blank_r x v V)|].
  change (on_last (fun x0 => x0 ++ v) (x :: y :: l)) with (x :: on_last (fun x0 => x0 ++ v) (y :: l)). cbn [map]. now rewrite IH.
Qed.
Lemma blank_no_comma w : blank w -> ~ In ","%char w. Proof. intros B. now apply (noin is_space). Qed.
Lemma reassemble_pre w s : blank w -> reassemble_parens (w ++ s) = reassemble_parens s.
Proof.
  intros W. unfold reassemble_parens. rewrite split_pre by now apply blank_no_comma. destruct (split_on "," s) as [|p r]; auto. cbn [on_first].
  rewrite glue_pre by auto. destruct (glue p r) as [l|]; [|reflexivity]. cbn. now rewrite keep_first.
Qed.
Lemma reassemble_post s v : blank v -> reassemble_parens (s ++ v) = reassemble_parens s.
Proof.
  intros V. unfold reassemble_parens. rewrite split_post by now apply blank_no_comma. destruct (split_on "," s) as [|p r] eqn:E; auto.
  pose proof (glue_post v V r p) as G. destruct (on_last (fun x => x ++ v) (p :: r)) as [|q t] eqn:E2; [destruct r; discriminate|]. cbn [glue_l] in G. rewrite G.
  destruct (glue p r) as [l|]; [|reflexivity]. cbn. now rewrite keep_last.
Qed.
Lemma strip_split s : exists w v, blank w /\ blank v /\ s = w ++ strip s ++ v.
Proof.
  destruct (blank_or_last s) as [B|(p & c & v & -> & C & V)].
  - exists s, []. rewrite strip_blank by auto. now rewrite !app_nil_r.
  - rewrite app_comm_cons || idtac. exists (takewhile is_space (p ++ [c])), v.
    assert (TB : blank (takewhile is_space (p ++ [c]))). { unfold blank. clear. induction (p ++ [c]) as [|d l IH]; cbn; auto. destruct (is_space d) eqn:D; cbn; auto. now rewrite D. }
    split; auto. split; auto. replace (p ++ c :: v) with ((p ++ [c]) ++ v) by now rewrite <- app_assoc. rewrite strip_blank_r by auto.
    rewrite app_assoc. f_equal. unfold strip. assert (X : exists q, lstrip (p ++ [c]) = q ++ [c]).
    { clear V TB. induction p as [|d p IH]; [exists []; cbn; unfold lstrip; cbn; now rewrite C|]. unfold lstrip in *. cbn. destruct (is_space d); auto. exists (d :: p). reflexivity. }
    destruct X as (q & X). rewrite X, rstrip_end by auto. rewrite <- X. symmetry. apply take_drop_while.
Qed.
Lemma reassemble_strip s : reassemble_parens (strip s) = reassemble_parens s.
Proof. destruct (strip_split s) as (w & v & W & V & E). rewrite E at 2. now rewrite reassemble_pre, reassemble_post by auto. Qed.

Lemma glue_item r : forall p rest, paren_sum (join (L ",") (p :: r)) = 0%Z ->
  (forall l1 l2, r = l1 ++ l2 -> l2 <> [] -> paren_sum (join (L ",") (p :: l1)) <> 0%Z) ->
  glue p (r ++ rest) = match rest with [] => Ok [join (L ",") (p :: r)] | q :: t => l <- glue q t ;; Ok (join (L ",") (p :: r) :: l) end.
Proof.
  induction r as [|a r IH]; intros p rest Z H.
  - cbn [app join] in *. apply same_sum in Z. destruct rest as [|q t]; cbn; now rewrite Z.
  - assert (NP : same_count p = false). { apply same_sum_f. apply (H [] (a :: r)); easy. }
    cbn [app glue]. rewrite NP. assert (J : forall l, join (L ",") (p :: a :: l) = join (L ",") ((p ++ L "," ++ a) :: l)).
    { intros l. rewrite join_cons2. destruct l as [|b l]; [reflexivity|]. rewrite !join_cons2. now rewrite <- !app_assoc. }
    rewrite IH, J; auto; [now rewrite <- J|]. intros l1 l2 E N. rewrite <- J. apply (H (a :: l1) l2); auto. cbn. now rewrite E.
Qed.
Lemma split_prefix sep s : forall l1 l2, split_on sep s = l1 ++ l2 -> l1 <> [] -> l2 <> [] -> s = join [sep] l1 ++ sep :: join [sep] l2.
Proof. intros l1 l2 E N1 N2. rewrite <- (join_split sep s), E. now rewrite join_app. Qed.
Lemma reassemble_items l : (forall x, In x l -> one_item x) -> reassemble_parens (join (L ",") l) = Ok (keep l).
Proof.
  intros H. destruct l as [|x0 l0]; [reflexivity|].
  assert (G : forall l x, (forall y, In y (x :: l) -> one_item y) ->
    glue_l (split_on "," (join (L ",") (x :: l))) = Ok (x :: l)).
  { clear. induction l as [|y l IH]; intros x H.
    - cbn [join]. destruct (split_on "," x) as [|p r] eqn:E; [now apply split_on_nonempty in E|]. cbn [glue_l].
      assert (J : join (L ",") (p :: r) = x) by (rewrite <- E; apply join_split). destruct (H x (or_introl eq_refl)) as [Z C].
      pose proof (glue_item r p []) as G. rewrite app_nil_r, J in G. apply G; auto.
      intros l1 l2 E2 N. apply (C (join (L ",") (p :: l1)) (join (L ",") l2)). apply (split_prefix ","%char x (p :: l1) l2); auto; [|easy]. rewrite E, E2. reflexivity.
    - rewrite join_cons2. change (L "," ++ join (L ",") (y :: l)) with (","%char :: join (L ",") (y :: l)). rewrite split_cat.
      destruct (split_on "," x) as [|p r] eqn:E; [now apply split_on_nonempty in E|].
      assert (J : join (L ",") (p :: r) = x) by (rewrite <- E; apply join_split). destruct (H x (or_introl eq_refl)) as [Z C].
      assert (Z' : paren_sum (join (L ",") (p :: r)) = 0%Z) by (rewrite J; exact Z).
      assert (CC : forall l1 l2, r = l1 ++ l2 -> l2 <> [] -> paren_sum (join (L ",") (p :: l1)) <> 0%Z).
      { intros l1 l2 E2 N. apply (C (join (L ",") (p :: l1)) (join (L ",") l2)). apply (split_prefix ","%char x (p :: l1) l2); auto; [|easy]. rewrite E, E2. reflexivity. }
      cbn [app glue_l]. rewrite (glue_item r p _ Z' CC).
      specialize (IH y (fun z I => H z (or_intror I))). destruct (split_on "," (join (L ",") (y :: l))) as [|q t] eqn:E2; [now apply split_on_nonempty in E2|].
      cbn [glue_l] in IH. rewrite IH. cbn [bind]. now rewrite J. }
  specialize (G l0 x0 H). unfold reassemble_parens. destruct (split_on "," (join (L ",") (x0 :: l0))) as [|p r]; [now injection G|]. cbn [glue_l] in G. now rewrite G.
Qed.

(* ---- items ---- *)
Lemma app_split (a b p q : str) c : a ++ b = p ++ c :: q -> (exists q', a = p ++ c :: q') \/ exists p', p = a ++ p' /\ b = p' ++ c :: q.
Proof.
  revert p. induction a as [|d a IH]; intros p E; [right; exists p; auto|]. destruct p as [|e p].
  - injection E as -> E. left. now exists a.
  - injection E as <- E. destruct (IH p E) as [(q' & ->)|(p' & -> & ->)]; [left; now exists q'|right; now exists p'].
Qed.
Lemma one_app a b : one_item a -> one_item b -> one_item (a ++ b).
Proof.
  intros [A1 A2] [B1 B2]. split; [rewrite sum_app; lia|]. intros p q E. destruct (app_split a b p q _ E) as [(q' & E')|(p' & -> & E')]; [now apply (A2 p q')|].
  rewrite sum_app, A1. apply (B2 p' q) in E'. lia.
Qed.
Lemma one_plain (s : str) : ~ In "("%char s -> ~ In ")"%char s -> ~ In ","%char s -> one_item s.
Proof.
  intros A B C. split.
  - induction s as [|c s IH]; auto. cbn. rewrite IH; [|intros I; apply A; now right|intros I; apply B; now right|intros I; apply C; now right].
    destruct (Ascii.eqb_spec c "(") as [E|]; [exfalso; apply A; left; auto|]. destruct (Ascii.eqb_spec c ")") as [E|]; [exfalso; apply B; left; auto|]. reflexivity.
  - intros p q E. exfalso. apply C. rewrite E. apply in_app_iff. right. now left.
Qed.
Lemma one_blank w : blank w -> one_item w.
Proof. intros B. apply one_plain; now apply (noin is_space). Qed.
Lemma one_word w : forallb is_word w = true -> one_item w.
Proof. intros B. apply one_plain; now apply (noin is_word). Qed.
Lemma one_group d : balanced d -> one_item (L "(" ++ d ++ L ")").
Proof.
  intros [Z P]. split; [rewrite !sum_app, Z; reflexivity|]. intros p q E. cbn in E. destruct p as [|c p]; [discriminate|]. injection E as <- E.
  destruct (app_split d [")"%char] p q _ E) as [(q' & E')|(p' & -> & E')].
  - apply P in E'. cbn. lia.
  - destruct p' as [|x [|y p']]; discriminate.
Qed.

(* ---- attributes ---- *)
Definition core (a : attr) : str := a_name a ++ match a_arg a with Some x => a_gap a ++ L "(" ++ x ++ L ")" | None => [] end.
Lemma attributes_alpha n : In n attributes -> forallb is_alpha n = true /\ n <> [].
Proof. intros I. assert (X : forallb (fun n => forallb is_alpha n && negb (is_nil n)) attributes = true) by reflexivity. rewrite forallb_forall in X. apply X in I. apply andb_true_iff in I as [A B]. split; auto. now intros ->. Qed.
Lemma name_alpha a : attr_ok a -> forallb is_alpha (a_name a) = true /\ a_name a <> [].
Proof.
  intros (_ & _ & _ & I & _). destruct (attributes_alpha _ I) as [A N]. split; [now apply (spells_alpha (a_name a) _ eq_refl)|]. intros E. rewrite E in N. now apply N.
Qed.
Lemma core_solid a : attr_ok a -> solid (core a).
Proof.
  intros O. destruct (name_alpha a O) as [A N]. assert (S : solid (a_name a)) by (apply solid_word; auto; now apply alpha_words).
  unfold core. destruct (a_arg a) as [x|]; [|now rewrite app_nil_r]. destruct S as [(c & t & -> & C) _].
  split; [exists c, (t ++ a_gap a ++ L "(" ++ x ++ L ")"); auto|]. exists ((c :: t) ++ a_gap a ++ L "(" ++ x), ")"%char. split; auto. now rewrite <- !app_assoc.
Qed.
Lemma attr_core a : attr_text a = a_before a ++ core a ++ a_after a.
Proof. unfold attr_text, core. destruct (a_arg a); now rewrite <- !app_assoc. Qed.
Lemma attr_strip a : attr_ok a -> strip (attr_text a) = core a.
Proof. intros O. rewrite attr_core. assert (S := core_solid a O). destruct O as (B & G & A & _). now apply strip_core. Qed.
Lemma attr_one a : attr_ok a -> one_item (attr_text a).
Proof.
  intros O. rewrite attr_core. assert (NA := proj1 (name_alpha a O)). destruct O as (B & G & A & I & X & _). apply one_app; [now apply one_blank|]. apply one_app; [|now apply one_blank].
  unfold core. apply one_app; [apply one_word; now apply alpha_words|]. destruct (a_arg a) as [x|]; [|apply one_plain; auto]. apply one_app; [now apply one_blank|]. apply one_group. now apply X.
Qed.
Lemma keep_solid l : (forall x, In x l -> solid (strip x)) -> keep l = map strip l.
Proof.
  unfold keep. induction l as [|x l IH]; intros H; auto. cbn. rewrite IH by (intros; apply H; now right).
  destruct (H x (or_introl eq_refl)) as [(c & t & E & _) _]. rewrite E. reflexivity.
Qed.
Lemma lower_blank w : blank w -> blank (lower w).
Proof. unfold blank, lower. induction w as [|c w IH]; cbn; auto. intros H. apply andb_true_iff in H as [C H]. rewrite lower_space, C. cbn [andb]. exact (IH H). Qed.
Lemma lower_in c s : is_alpha c = false -> In c (lower s) <-> In c s.
Proof.
  intros A. unfold lower. rewrite in_map_iff. split; [intros (d & E & I)|intros I; exists c; split; auto].
  - assert (Q : Ascii.eqb (lower_c d) c = true) by (rewrite E; apply Ascii.eqb_refl). rewrite lower_same in Q by auto. apply Ascii.eqb_eq in Q. rewrite <- Q. exact I.
  - assert (Q := lower_same c c A). rewrite Ascii.eqb_refl in Q. now apply Ascii.eqb_eq in Q.
Qed.
Lemma lower_strip s : lower (strip s) = strip (lower s).
Proof.
  unfold strip, rstrip, lstrip. assert (D : forall s, lower (dropwhile is_space s) = dropwhile is_space (lower s)).
  { clear. induction s as [|c s IH]; cbn; auto. rewrite lower_space. destruct (is_space c); auto. }
  assert (R : forall s, lower (rev s) = rev (lower s)) by (intros; apply map_rev). now rewrite R, D, R, D.
Qed.
Lemma attr_in_model : attr_specs = attributes. Proof. reflexivity. Qed.
Lemma lower_core a : lower (core a) = lower (a_name a) ++ match a_arg a with Some x => lower (a_gap a) ++ L "(" ++ lower x ++ L ")" | None => [] end.
Proof. unfold core. rewrite lower_app. destruct (a_arg a); [|reflexivity]. now rewrite !lower_app. Qed.
Lemma check_attrs_ok al : (forall a, In a al -> attr_ok a) -> check_attrs (map (fun a => strip (attr_text a)) al) = Ok (map (fun a => lower (core a)) al).
Proof.
  induction al as [|a al IH]; intros H; auto. cbn [map check_attrs]. assert (O := H a (or_introl eq_refl)). rewrite attr_strip by auto.
  rewrite (strip_solid (core a)) by now apply core_solid. rewrite IH by (intros; apply H; now right).
  assert (P : (if has_c "(" (lower (core a)) then strip (upto_c "(" (lower (core a))) else lower (core a)) = lower (a_name a)).
  { destruct (name_alpha a O) as [NA NN]. assert (NL : ~ In "("%char (lower (a_name a))) by (rewrite lower_in by reflexivity; now apply (noin is_alpha)).
    rewrite lower_core. destruct O as (_ & G & _). destruct (a_arg a) as [x|].
    - assert (HC : has_c "(" (lower (a_name a) ++ lower (a_gap a) ++ L "(" ++ lower x ++ L ")") = true) by (apply has_c_in; rewrite !in_app_iff; right; right; left; now left).
      rewrite HC. rewrite app_assoc. change (L "(" ++ lower x ++ L ")") with ("("%char :: lower x ++ L ")"). rewrite upto_at.
      + rewrite strip_blank_r by now apply lower_blank. rewrite <- lower_strip. f_equal. apply strip_solid. apply solid_word; auto. now apply alpha_words.
      + rewrite in_app_iff. intros [I|I]; auto. revert I. apply (noin is_space); auto. now apply lower_blank.
    - rewrite app_nil_r. assert (HC : has_c "(" (lower (a_name a)) = false) by now apply has_c_not. now rewrite HC. }
  rewrite P, attr_in_model. assert (E : existsb (str_eqb (lower (a_name a))) attributes = true).
  { apply existsb_exists. exists (lower (a_name a)). split; [apply O|apply str_eqb_refl]. }
  rewrite E. reflexivity.
Qed.
Lemma attrs_join al : al <> [] -> attrs_text al = ","%char :: join (L ",") (map attr_text al).
Proof.
  unfold attrs_text. induction al as [|a al IH]; intros N; [easy|]. cbn [map List.concat]. destruct al as [|b al]; [cbn; now rewrite app_nil_r|].
  rewrite IH by easy. reflexivity.
Qed.
Lemma parse_attrs_ok al w : (forall a, In a al -> attr_ok a) -> blank w -> parse_attr_specs (w ++ attrs_text al) = Ok (map (fun a => lower (core a)) al).
Proof.
  intros H W. unfold parse_attr_specs. rewrite strip_blank_l by auto. destruct al as [|a al]; [reflexivity|].
  rewrite attrs_join by easy. rewrite strip_from by reflexivity. cbn [Ascii.eqb Bool.eqb].
  assert (Z : forall s, reassemble_parens (lstrip (rstrip s)) = reassemble_parens s).
  { intros s. assert (X1 : reassemble_parens (lstrip (rstrip s)) = reassemble_parens (rstrip s)).
    { unfold lstrip. destruct (dropwhile_app is_space (rstrip s)) as (w1 & E1 & B1). rewrite E1 at 2. symmetry. now apply reassemble_pre. }
    rewrite X1. destruct (blank_or_last s) as [B|(p & c & v & -> & C & V)].
    - rewrite rstrip_nil by auto. symmetry. apply (reassemble_pre s []) in B. now rewrite app_nil_r in B.
    - rewrite rstrip_after by auto. rewrite (rstrip_nil v) by auto. change (c :: v) with ([c] ++ v). rewrite app_assoc. symmetry. now apply reassemble_post. }
  rewrite Z, reassemble_items.
  - cbn [bind]. rewrite keep_solid.
    + rewrite map_map. now apply check_attrs_ok.
    + intros x I. apply in_map_iff in I as (b & <- & I). rewrite attr_strip by auto. apply core_solid. auto.
  - intros x I. apply in_map_iff in I as (b & <- & I). apply attr_one. auto.
Qed.
Lemma differ_first w n rest : differ w n = true -> firstn (length w) (n ++ rest) <> w.
Proof.
  revert n. induction w as [|c w IH]; intros n; cbn; [discriminate|]. destruct n as [|d n]; [discriminate|]. cbn. destruct (Ascii.eqb_spec d c) as [->|N].
  - intros D E. injection E as E. now apply (IH n).
  - intros _ E. now injection E.
Qed.
Lemma starts_named n a : In (L n) (map L ["intent"; "dimension"]%string) -> attr_ok a -> str_eqb (firstn (length (L n)) (lower (core a))) (L n) = named n a.
Proof.
  intros NI O. unfold named. rewrite lower_core. destruct O as (_ & _ & _ & I & _). revert I.
  generalize (match a_arg a with Some x => lower (a_gap a) ++ L "(" ++ lower x ++ L ")" | None => [] end) as rest. generalize (lower (a_name a)) as m. intros m rest I.
  assert (X : forallb (fun m => str_eqb m (L n) || differ (L n) m) attributes = true) by (destruct NI as [E|[E|[]]]; rewrite <- E; reflexivity).
  rewrite forallb_forall in X. specialize (X m I). apply orb_true_iff in X as [X|X].
  - rewrite X. apply str_eqb_eq in X. rewrite X. rewrite firstn_app, firstn_all, Nat.sub_diag. cbn [firstn]. rewrite app_nil_r. apply str_eqb_refl.
  - assert (D : m <> L n) by (intros ->; clear -X NI; destruct NI as [E|[E|[]]]; rewrite <- E in X; discriminate X).
    apply str_eqb_neq in D. rewrite D. apply str_eqb_neq. now apply differ_first.
Qed.
(* the argument of an attribute, as the loop cuts it out *)
Lemma arg_cut n a x : named n a = true -> attr_ok a -> a_arg a = Some x -> strip (skipn (length (L n)) (lower (core a))) = L "(" ++ lower x ++ L ")".
Proof.
  intros N O E. unfold named in N. apply str_eqb_eq in N. rewrite lower_core, E, N. rewrite skipn_app, skipn_all, Nat.sub_diag. cbn [skipn app].
  rewrite strip_blank_l by (apply lower_blank, O). apply strip_solid, paren_solid.
Qed.
Definition value (f : str -> str) (n : string) (al : list attr) (old : option str) : option str :=
  match List.find (named n) (rev al) with Some a => match a_arg a with Some x => Some (f x) | None => None end | None => old end.
Lemma find_snoc {A} (f : A -> bool) l x : List.find f (l ++ [x]) = match List.find f l with Some y => Some y | None => if f x then Some x else None end.
Proof. induction l as [|y l IH]; cbn; auto. destruct (f y); auto. Qed.
Lemma inner_strip x : strip (inner (L "(" ++ x ++ L ")")) = strip x. Proof. now rewrite inner_group. Qed.
Lemma scan_scheme logger al : (forall a, In a al -> attr_ok a) -> forall i d,
  scan_attrs true logger (map (fun a => lower (core a)) al) i d =
  Ok (value (fun x => lower (strip x)) "intent" al i, value (fun x => L "(" ++ lower x ++ L ")") "dimension" al d).
Proof.
  induction al as [|a al IH]; intros H i d; [reflexivity|]. cbn [map scan_attrs]. assert (O := H a (or_introl eq_refl)).
  change 9 with (length (L "dimension")). change 6 with (length (L "intent")).
  rewrite (starts_named "intent" a), (starts_named "dimension" a) by (cbn; auto). unfold value. cbn [rev]. rewrite !find_snoc.
  assert (IH' := IH (fun b I => H b (or_intror I))). unfold value in IH'.
  destruct (named "intent" a) eqn:NI.
  - assert (ND : named "dimension" a = false) by (unfold named in *; apply str_eqb_eq in NI; rewrite NI; reflexivity). rewrite ND.
    destruct (a_arg a) as [x|] eqn:E; [|destruct O as (_ & _ & _ & _ & _ & O); exfalso; apply O; auto].
    rewrite IH'. rewrite (arg_cut "intent" a x NI O E), inner_strip, <- lower_strip. do 2 f_equal; [destruct (List.find (named "intent") (rev al)); [reflexivity|now rewrite E]|].
    destruct (List.find (named "dimension") (rev al)); reflexivity.
  - destruct (named "dimension" a) eqn:ND.
    + destruct (a_arg a) as [x|] eqn:E; [|destruct O as (_ & _ & _ & _ & _ & O); exfalso; apply O; auto].
      rewrite IH'. rewrite (arg_cut "dimension" a x ND O E). do 2 f_equal; [destruct (List.find (named "intent") (rev al)); reflexivity|destruct (List.find (named "dimension") (rev al)); [reflexivity|now rewrite E]].
    + rewrite IH'. do 2 f_equal; [destruct (List.find (named "intent") (rev al)); reflexivity|destruct (List.find (named "dimension") (rev al)); reflexivity].
Qed.
(* outside schemes an intent is skipped with a warning, or is an error *)
Lemma scan_other al : (forall a, In a al -> attr_ok a) -> forall logger i d,
  scan_attrs false logger (map (fun a => lower (core a)) al) i d =
  if existsb (named "intent") al && negb logger then Raise "ParseSyntaxError: intent not allowed"
  else Ok (i, value (fun x => L "(" ++ lower x ++ L ")") "dimension" al d).
Proof.
  induction al as [|a al IH]; intros H logger i d; [reflexivity|]. cbn [map scan_attrs existsb]. assert (O := H a (or_introl eq_refl)).
  change 9 with (length (L "dimension")). change 6 with (length (L "intent")).
  rewrite (starts_named "intent" a), (starts_named "dimension" a) by (cbn; auto). unfold value. cbn [rev]. rewrite !find_snoc.
  assert (IH' := IH (fun b I => H b (or_intror I))). unfold value in IH'.
  destruct (named "intent" a) eqn:NI.
  - assert (ND : named "dimension" a = false) by (unfold named in *; apply str_eqb_eq in NI; rewrite NI; reflexivity). rewrite ND. cbn [orb].
    destruct logger; [|reflexivity]. rewrite IH'. cbn [negb andb]. rewrite andb_false_r. do 2 f_equal. destruct (List.find (named "dimension") (rev al)); reflexivity.
  - cbn [orb]. destruct (named "dimension" a) eqn:ND.
    + destruct (a_arg a) as [x|] eqn:E; [|destruct O as (_ & _ & _ & _ & _ & O); exfalso; apply O; auto].
      rewrite IH'. rewrite (arg_cut "dimension" a x ND O E). destruct (existsb (named "intent") al && negb logger); [reflexivity|]. do 2 f_equal. destruct (List.find (named "dimension") (rev al)); [reflexivity|now rewrite E].
    + rewrite IH'. destruct (existsb (named "intent") al && negb logger); [reflexivity|]. do 2 f_equal. destruct (List.find (named "dimension") (rev al)); reflexivity.
Qed.
Lemma flag_set n al : In (L n) (map L ["optional"; "allocatable"]%string) -> (forall a, In a al -> attr_ok a) ->
  existsb (str_eqb (L n)) (map (fun a => lower (core a)) al) = true <-> is_set n al.
Proof.
  intros NI H. rewrite existsb_exists. unfold is_set. split.
  - intros (s & I & E). apply str_eqb_eq in E. apply in_map_iff in I as (a & E2 & I). exists a. split; auto. subst s. rewrite lower_core in E.
    destruct (a_arg a) as [x|].
    + exfalso. assert (P : In "("%char (L n)) by (rewrite E, !in_app_iff; right; right; left; now left). destruct NI as [N|[N|[]]]; rewrite <- N in P; cbn in P; repeat destruct P as [P|P]; discriminate || easy.
    + rewrite app_nil_r in E. split; auto. unfold named. rewrite <- E. apply str_eqb_refl.
  - intros (a & I & N & A). exists (lower (core a)). split; [apply in_map_iff; eauto|]. rewrite lower_core, A, app_nil_r. unfold named in N. apply str_eqb_eq in N. rewrite N. apply str_eqb_refl.
Qed.

(* ---- entities ---- *)
Definition ecore (e : ent) : str := e_name e ++ match e_dims e with Some d => e_gap e ++ L "(" ++ d ++ L ")" | None => [] end.
Lemma ecore_solid e : ent_ok e -> solid (ecore e).
Proof.
  intros (_ & _ & _ & I & _). assert (S := ident_solid _ I). unfold ecore. destruct (e_dims e) as [d|]; [|now rewrite app_nil_r]. destruct S as [(c & t & -> & C) _].
  split; [exists c, (t ++ e_gap e ++ L "(" ++ d ++ L ")"); auto|]. exists ((c :: t) ++ e_gap e ++ L "(" ++ d), ")"%char. split; auto. now rewrite <- !app_assoc.
Qed.
Lemma ent_core e : ent_text e = e_before e ++ ecore e ++ e_after e ++ match e_init e with Some i => L "=" ++ i | None => [] end.
Proof. unfold ent_text, ecore. now rewrite <- !app_assoc. Qed.
Lemma ent_one e : ent_ok e -> one_item (ent_text e).
Proof.
  intros (B & G & A & I & D & N). rewrite ent_core. apply one_app; [now apply one_blank|]. apply one_app.
  - unfold ecore. apply one_app; [now apply one_word, ident_word|]. destruct (e_dims e) as [d|]; [|apply one_plain; auto]. apply one_app; [now apply one_blank|]. apply one_group. now apply (D d).
  - apply one_app; [now apply one_blank|]. destruct (e_init e) as [i|]; [|apply one_plain; auto]. apply one_app; [apply one_plain; cbn; intuition discriminate|]. now apply (N i).
Qed.
Lemma loop_skip (s : str) : forall rest idx depth, (forall c, In c s -> c <> "("%char /\ c <> ")"%char /\ c <> "'"%char /\ c <> """"%char) ->
  paren_loop (s ++ rest) idx depth None None = paren_loop rest (idx + length s) depth None None.
Proof.
  induction s as [|c s IH]; intros rest idx depth H; [cbn; now rewrite Nat.add_0_r|]. cbn [app paren_loop]. destruct (H c (or_introl eq_refl)) as (A & B & C & D).
  apply Ascii.eqb_neq in A, B, C, D. rewrite A, B, C, D. cbn [orb]. rewrite IH by (intros; apply H; now right). f_equal. cbn. lia.
Qed.
Lemma loop_body (s : str) : forall rest idx depth b, ~ In "'"%char s -> ~ In """"%char s -> (forall p q, s = p ++ q -> 0 < depth + paren_sum p)%Z ->
  paren_loop (s ++ rest) idx depth None b = paren_loop rest (idx + length s) (depth + paren_sum s)%Z None b.
Proof.
  induction s as [|c s IH]; intros rest idx depth b Q1 Q2 H; [cbn; now rewrite Nat.add_0_r, Z.add_0_r|]. cbn [app paren_loop].
  assert (D0 := H [] (c :: s) eq_refl). cbn in D0. assert (D1 := H [c] s eq_refl). cbn [paren_sum] in D1.
  destruct (Ascii.eqb_spec c """") as [E|]; [exfalso; apply Q2; now left|]. destruct (Ascii.eqb_spec c "'") as [E|]; [exfalso; apply Q1; now left|]. cbn [orb].
  assert (H' : forall x, (x = (if Ascii.eqb c "(" then 1 else if Ascii.eqb c ")" then -1 else 0))%Z -> forall p q, s = p ++ q -> (0 < depth + x + paren_sum p)%Z).
  { intros x -> p q E. specialize (H (c :: p) q). cbn in H. rewrite E in H. specialize (H eq_refl). lia. }
  cbn [paren_sum]. destruct (Ascii.eqb_spec c "(") as [E|].
  - replace (Z.eqb depth 0) with false by (symmetry; apply Z.eqb_neq; lia). replace (Z.eqb (depth + 1) 0) with false by (symmetry; apply Z.eqb_neq; lia).
    rewrite IH; [f_equal; cbn; lia|intros I; apply Q1; now right|intros I; apply Q2; now right|now apply H'].
  - destruct (Ascii.eqb_spec c ")") as [E|].
    + replace (Z.eqb (depth - 1) 0) with false by (symmetry; apply Z.eqb_neq; lia). replace (depth - 1)%Z with (depth + -1)%Z by lia.
      rewrite IH; [f_equal; cbn; lia|intros I; apply Q1; now right|intros I; apply Q2; now right|now apply H'].
    + rewrite IH; [f_equal; cbn; lia|intros I; apply Q1; now right|intros I; apply Q2; now right|]. intros p q E. specialize (H' 0%Z eq_refl p q E). lia.
Qed.
Lemma paren_found x d : (forall c, In c x -> c <> "("%char /\ c <> ")"%char /\ c <> "'"%char /\ c <> """"%char) -> balanced d -> ~ In "'"%char d -> ~ In """"%char d ->
  check_balanced_paren (x ++ L "(" ++ d ++ L ")") 0 false = Ok (Some (length x), Some (length x + length d + 1)).
Proof.
  intros X [Z P] Q1 Q2. unfold check_balanced_paren. cbn [skipn]. rewrite loop_skip by auto. cbn [L list_ascii_of_string app paren_loop Ascii.eqb Bool.eqb orb Z.eqb Z.add].
  rewrite loop_body; auto.
  - rewrite Z. cbn. do 3 f_equal. lia.
  - intros p q E. apply P in E. lia.
Qed.
Lemma upto_last_at c (p q : str) : ~ In c q -> upto_last c (p ++ c :: q) = p.
Proof.
  intros N. unfold upto_last. rewrite rev_app_distr. cbn [rev]. rewrite <- app_assoc. cbn [app].
  assert (X : forall u v, ~ In c u -> dropwhile (fun d => negb (Ascii.eqb d c)) (u ++ c :: v) = c :: v).
  { induction u as [|d u IH]; intros v NI; cbn; [now rewrite Ascii.eqb_refl|]. destruct (Ascii.eqb_spec d c) as [->|]; [exfalso; apply NI; now left|]. cbn. apply IH. intros I. apply NI. now right. }
  rewrite X by (intros I; apply N; now apply in_rev). cbn. apply rev_involutive.
Qed.
Lemma rstrip_in c s : In c (rstrip s) -> In c s.
Proof. unfold rstrip. intros I. apply in_rev in I. destruct (dropwhile_app is_space (rev s)) as (p & E & _). apply in_rev. rewrite E. apply in_app_iff. auto. Qed.
Definition own (e : ent) : option str := match e_dims e with Some d => Some (L "(" ++ d ++ L ")") | None => None end.
Lemma entity_ok logger prev e : ent_ok e -> entity logger prev (strip (ent_text e)) = Ok (e_name e, Some (own e)).
Proof.
  intros O. assert (S := ecore_solid e O). destruct O as (B & G & A & I & D & N).
  assert (NEQ : ~ In "="%char (ecore e)).
  { unfold ecore. destruct (ident_word _ I) as [_ W]. rewrite in_app_iff. intros [J|J]; [revert J; now apply (noin is_word)|]. destruct (e_dims e) as [d|] eqn:ED; [|easy].
    rewrite !in_app_iff in J. destruct J as [J|[J|[J|J]]]; [revert J; now apply (noin is_space)|cbn in J; intuition discriminate|destruct (D d eq_refl) as (_ & DX & _); auto|cbn in J; intuition discriminate]. }
  assert (V : (if has_c "=" (strip (ent_text e)) then rstrip (upto_last "=" (strip (ent_text e))) else strip (ent_text e)) = ecore e).
  { rewrite ent_core. destruct (e_init e) as [i|].
    - destruct (N i eq_refl) as [_ NI]. assert (E : strip (e_before e ++ ecore e ++ e_after e ++ L "=" ++ i) = (ecore e ++ e_after e) ++ "="%char :: rstrip i).
      { rewrite strip_blank_l by auto. unfold strip. destruct S as [(c & t & E & C) _]. rewrite E. cbn [app]. rewrite lstrip_head by auto.
        change (c :: t ++ e_after e ++ L "=" ++ i) with ((c :: t) ++ e_after e ++ "="%char :: i). rewrite app_assoc. now rewrite rstrip_after. }
      rewrite E. assert (HC : has_c "=" ((ecore e ++ e_after e) ++ "="%char :: rstrip i) = true) by (apply has_c_in, in_app_iff; right; now left).
      rewrite HC, upto_last_at by (intros J; now apply rstrip_in in J). rewrite rstrip_blank by auto. destruct S as [_ (t & c & E2 & C)]. rewrite E2. now apply rstrip_end.
    - rewrite app_nil_r. rewrite strip_core by auto. assert (HC : has_c "=" (ecore e) = false) by now apply has_c_not. now rewrite HC. }
  unfold entity. rewrite V. unfold ecore, own in *. destruct (ident_word _ I) as [NN W]. destruct (e_dims e) as [d|].
  - destruct (D d eq_refl) as (BD & _ & Q1 & Q2).
    assert (HC : has_c "(" (e_name e ++ e_gap e ++ L "(" ++ d ++ L ")") = true) by (apply has_c_in; rewrite !in_app_iff; right; right; left; now left). rewrite HC.
    assert (PN : forall c, In c (e_name e ++ e_gap e) -> c <> "("%char /\ c <> ")"%char /\ c <> "'"%char /\ c <> """"%char).
    { intros c J. apply in_app_iff in J as [J|J]; [rewrite forallb_forall in W; apply W in J|unfold blank in G; rewrite forallb_forall in G; apply G in J]; repeat split; intros ->; discriminate. }
    rewrite app_assoc. rewrite paren_found by auto. cbn [bind]. change (L "(" ++ d ++ L ")") with ("("%char :: d ++ L ")") at 1. rewrite upto_at by (intros J; now destruct (PN _ J)).
    rewrite strip_blank_r by auto. rewrite strip_solid by now apply solid_word. do 4 f_equal. unfold slice. rewrite firstn_all2 by lens.
    rewrite skipn_app, skipn_all, Nat.sub_diag. reflexivity.
  - rewrite app_nil_r in *. assert (HC : has_c "(" (e_name e) = false) by (apply has_c_not; now apply (noin is_word)). rewrite HC. now rewrite strip_solid by now apply solid_word.
Qed.
Lemma entities_ok logger t props i d el : (forall e, In e el -> ent_ok e) -> forall prev,
  entities logger t props i d prev (map (fun e => strip (ent_text e)) el) = Ok (map (fun e => make_var t props i d (e_name e) (own e)) el).
Proof.
  induction el as [|e el IH]; intros H prev; [reflexivity|]. cbn [map entities]. rewrite entity_ok by (apply H; now left). cbn [bind snd fst].
  rewrite IH by (intros; apply H; now right). reflexivity.
Qed.
Lemma ents_reassemble el : (forall e, In e el -> ent_ok e) -> reassemble_parens (ents_text el) = Ok (map (fun e => strip (ent_text e)) el).
Proof.
  intros H. unfold ents_text. rewrite reassemble_items.
  - rewrite keep_solid; [now rewrite map_map|]. intros x I. apply in_map_iff in I as (e & <- & I). specialize (H e I). rewrite ent_core.
    assert (S := ecore_solid e H). destruct H as (B & _ & A & _ & _ & N). destruct (e_init e) as [i|].
    + rewrite strip_blank_l by auto. destruct (strip_split (ecore e ++ e_after e ++ L "=" ++ i)) as (w & v & _ & _ & _). clear w v.
      unfold strip. destruct S as [(c & t & E & C) _]. rewrite E. cbn [app]. rewrite lstrip_head by auto.
      change (c :: t ++ e_after e ++ L "=" ++ i) with ((c :: t ++ e_after e ++ L "=" ++ i)).
      assert (X : rstrip (c :: t ++ e_after e ++ "="%char :: i) = c :: (t ++ e_after e ++ "="%char :: rstrip i)).
      { change (c :: t ++ e_after e ++ "="%char :: i) with ((c :: t) ++ e_after e ++ "="%char :: i). rewrite app_assoc, rstrip_after by reflexivity. rewrite <- app_assoc. reflexivity. }
      cbn [L list_ascii_of_string app] in *. rewrite X. split; [eexists _, _; split; [reflexivity|auto]|].
      destruct (blank_or_last i) as [BI|(p & z & v & -> & Z & V)].
      * rewrite rstrip_nil by auto. exists (c :: t ++ e_after e), "="%char. split; auto. cbn. now rewrite <- app_assoc.
      * rewrite rstrip_after by auto. rewrite rstrip_nil by auto. exists (c :: t ++ e_after e ++ "="%char :: p), z. split; auto. cbn. now rewrite <- !app_assoc.
    + rewrite app_nil_r. now rewrite strip_core.
  - intros x I. apply in_map_iff in I as (e & <- & I). apply ent_one. auto.
Qed.
