From Verif Require Import PreprocModel PreprocSpec.
Open Scope nat_scope.
Open Scope list_scope.

Section P.
Variable parse : str -> option (list expr).
Notation step := (read_step parse).
Notation rl := (read_lines parse).

Lemma read_lines_app st d a b :
  rl st d (a ++ b) =
  (x <- rl st d a ;;
   y <- rl (snd (fst x)) (snd x) b ;;
   Ok (fst (fst x) ++ fst (fst y), snd (fst y), snd y)).
Proof.
  revert st d; induction a as [|l a IH]; intros st d.
  - cbn [read_lines app bind fst snd]. destruct (rl st d b) as [[[o s] d']|e]; reflexivity.
  - cbn [read_lines app]. destruct (step st d l) as [[[o s] d']|e]; [|reflexivity].
    cbn [bind]. rewrite IH. destruct (rl s d' a) as [[[o2 s2] d2]|e]; [|reflexivity].
    cbn [bind fst snd]. destruct (rl s2 d2 b) as [[[o3 s3] d3]|e]; reflexivity.
Qed.

Lemma preproc_not_skip l : is_preproc_line l = true -> skip_line l = false.
Proof.
  unfold is_preproc_line, skip_line. destruct (lstrip l) as [|c t]; [discriminate|].
  intros H. apply Ascii.eqb_eq in H. subst c. reflexivity.
Qed.

Lemma dir_some l x : dir_of l = Some x -> is_preproc_line l = true /\ classify (strip l) = x.
Proof. unfold dir_of. destruct (is_preproc_line l); [|discriminate]. intros H. injection H as <-. auto. Qed.

Lemma step_plain st d l : is_plain (dir_of l) ->
  step st d l = Ok (plain_out (in_true_region st) l, st, plain_defs (in_true_region st) d l).
Proof.
  intros H. unfold read_step, plain_out, plain_defs.
  destruct (dir_of l) as [x|] eqn:E.
  - destruct (@dir_some _ _ E) as [E1 E2]. rewrite (@preproc_not_skip _ E1). unfold process_line. rewrite E1, E2.
    destruct x; cbn [is_plain] in H; try contradiction; cbn [bind]; destruct (in_true_region st); reflexivity.
  - unfold dir_of in E. unfold process_line. destruct (is_preproc_line l) eqn:Ep; [discriminate|].
    destruct (skip_line l) eqn:Es; [destruct (in_true_region st); reflexivity|]. cbn [bind].
    destruct (in_true_region st); reflexivity.
Qed.

Lemma step_if st d l : is_if (dir_of l) ->
  step st d l = (v <- cond_value parse d l ;; Ok ([], (v, v) :: st, d)).
Proof.
  intros H. destruct (dir_of l) as [x|] eqn:E; [|contradiction].
  destruct (@dir_some _ _ E) as [E1 E2]. unfold read_step, cond_value.
  rewrite (@preproc_not_skip _ E1). unfold process_line. rewrite E1, E2.
  destruct x; cbn [is_if] in H; try contradiction; cbn [bind]; try reflexivity.
  destruct (process_if_line parse (strip l) d) as [[v ok]|e]; reflexivity.
Qed.

Lemma step_elif st d l f c : dir_of l = Some DElif ->
  step ((f, c) :: st) d l = (v <- cond_value parse d l ;; Ok ([], (f, negb f && v) :: st, d)).
Proof.
  intros E. destruct (@dir_some _ _ E) as [E1 E2]. unfold read_step, cond_value.
  rewrite (@preproc_not_skip _ E1). unfold process_line. rewrite E1, E2.
  destruct (process_if_line parse (strip l) d) as [[v ok]|e]; [|reflexivity].
  cbn [bind fst modify_region]. destruct f; reflexivity.
Qed.

Lemma step_else st d l f c : dir_of l = Some DElse ->
  step ((f, c) :: st) d l = Ok ([], (f, negb f) :: st, d).
Proof.
  intros E. destruct (@dir_some _ _ E) as [E1 E2]. unfold read_step.
  rewrite (@preproc_not_skip _ E1). unfold process_line. rewrite E1, E2.
  cbn [bind fst modify_region]. destruct f; reflexivity.
Qed.

Lemma step_endif st d l r : dir_of l = Some DEndif -> step (r :: st) d l = Ok ([], st, d).
Proof.
  intros E. destruct (@dir_some _ _ E) as [E1 E2]. unfold read_step.
  rewrite (@preproc_not_skip _ E1). unfold process_line. rewrite E1, E2. reflexivity.
Qed.


Lemma cp_nil act d : code_prog parse act d PNil = Ok ([], d). Proof. reflexivity. Qed.
Lemma cp_line act d l r : code_prog parse act d (PLine l r) =
  (x <- code_prog parse act (plain_defs act d l) r ;; Ok (plain_out act l :: fst x, snd x)).
Proof. reflexivity. Qed.
Lemma cp_cond act d i b c r : code_prog parse act d (PCond i b c r) =
  (v <- cond_value parse d i ;; x <- code_prog parse (act && v) d b ;;
   y <- code_chain parse act v (snd x) c ;; z <- code_prog parse act (snd y) r ;;
   Ok ([] :: fst x ++ fst y ++ fst z, snd z)).
Proof. reflexivity. Qed.
Lemma cc_end act f d e : code_chain parse act f d (CEnd e) = Ok ([[]], d). Proof. reflexivity. Qed.
Lemma cc_elif act f d l b c : code_chain parse act f d (CElif l b c) =
  (v <- cond_value parse d l ;; x <- code_prog parse (act && negb f && v) d b ;;
   y <- code_chain parse act f (snd x) c ;; Ok ([] :: fst x ++ fst y, snd y)).
Proof. reflexivity. Qed.
Lemma cc_else act f d l b e : code_chain parse act f d (CElse l b e) =
  (x <- code_prog parse (act && negb f) d b ;; Ok ([] :: fst x ++ [[]], snd x)).
Proof. reflexivity. Qed.
Lemma rp_line act d l r : ref_prog parse act d (PLine l r) =
  (x <- ref_prog parse act (plain_defs act d l) r ;; Ok (plain_out act l :: fst x, snd x)).
Proof. reflexivity. Qed.
Lemma rp_cond act d i b c r : ref_prog parse act d (PCond i b c r) =
  (v <- cond_if parse act d i ;; x <- ref_prog parse (act && v) d b ;;
   y <- ref_chain parse act v (snd x) c ;; z <- ref_prog parse act (snd y) r ;;
   Ok ([] :: fst x ++ fst y ++ fst z, snd z)).
Proof. reflexivity. Qed.
Lemma rc_end act f d e : ref_chain parse act f d (CEnd e) = Ok ([[]], d). Proof. reflexivity. Qed.
Lemma rc_elif act f d l b c : ref_chain parse act f d (CElif l b c) =
  (v <- cond_if parse (act && negb f) d l ;; x <- ref_prog parse (act && negb f && v) d b ;;
   y <- ref_chain parse act (f || v) (snd x) c ;; Ok ([] :: fst x ++ fst y, snd y)).
Proof. reflexivity. Qed.
Lemma rc_else act f d l b e : ref_chain parse act f d (CElse l b e) =
  (x <- ref_prog parse (act && negb f) d b ;; Ok ([] :: fst x ++ [[]], snd x)).
Proof. reflexivity. Qed.
Ltac unf := rewrite ?cp_line, ?cp_cond, ?cc_end, ?cc_elif, ?cc_else, ?rp_line, ?rp_cond, ?rc_end, ?rc_elif, ?rc_else.
Ltac unf_all := rewrite ?cp_line, ?cp_cond, ?cc_end, ?cc_elif, ?cc_else, ?rp_line, ?rp_cond, ?rc_end, ?rc_elif, ?rc_else in *.

Definition with_stack (st : stack) (r : res (list str * defs)) : res (list str * stack * defs) :=
  match r with Ok (o, d) => Ok (o, st, d) | Raise e => Raise e end.

Lemma code_sim :
  (forall p, wf p -> forall st d,
     rl st d (lines_of p) = with_stack st (code_prog parse (in_true_region st) d p)) /\
  (forall c, wf_chain c -> forall st d f cur,
     rl ((f, cur) :: st) d (lines_of_chain c) = with_stack st (code_chain parse (in_true_region st) f d c)).
Proof.
  apply prog_chain_ind.
  - intros _ st d. reflexivity.
  - intros l r IH [H1 H2] st d. unf; cbn [lines_of read_lines lines_of_chain]. rewrite (step_plain st d l H1).
    cbn [bind]. rewrite IH by exact H2.
    destruct (code_prog parse _ _ r) as [[o d']|e]; reflexivity.
  - intros i b IHb c IHc r IHr (H1 & H2 & H3 & H4) st d.
    unf; cbn [lines_of read_lines lines_of_chain]. rewrite (step_if st d i H1).
    destruct (cond_value parse d i) as [v|e]; [|reflexivity]. cbn [bind].
    rewrite read_lines_app, IHb by exact H2.
    change (in_true_region ((v, v) :: st)) with (v && in_true_region st).
    rewrite (andb_comm v).
    destruct (code_prog parse _ d b) as [[ob db]|e]; [|reflexivity]. cbn [with_stack bind fst snd].
    rewrite read_lines_app, IHc by exact H3.
    destruct (code_chain parse _ v db c) as [[oc dc]|e]; [|reflexivity]. cbn [with_stack bind fst snd].
    rewrite IHr by exact H4.
    destruct (code_prog parse _ dc r) as [[o d']|e]; reflexivity.
  - intros e H st d f cur. unf; cbn [lines_of_chain read_lines lines_of]. cbn [wf_chain wf] in H.
    rewrite (step_endif _ _ _ _ H). reflexivity.
  - intros l b IHb c IHc (H1 & H2 & H3) st d f cur.
    unf; cbn [lines_of_chain read_lines lines_of]. rewrite (step_elif _ _ _ _ _ H1).
    destruct (cond_value parse d l) as [v|e]; [|reflexivity]. cbn [bind].
    rewrite read_lines_app, IHb by exact H2.
    change (in_true_region ((f, negb f && v) :: st)) with (negb f && v && in_true_region st).
    rewrite (andb_comm (negb f && v)), andb_assoc.
    destruct (code_prog parse _ d b) as [[ob db]|e]; [|reflexivity]. cbn [with_stack bind fst snd].
    rewrite IHc by exact H3.
    destruct (code_chain parse _ f db c) as [[oc dc]|e]; reflexivity.
  - intros l b IHb e (H1 & H2 & H3) st d f cur.
    unf; cbn [lines_of_chain read_lines lines_of]. rewrite (step_else _ _ _ _ _ H1). cbn [bind].
    rewrite read_lines_app, IHb by exact H2.
    change (in_true_region ((f, negb f) :: st)) with (negb f && in_true_region st).
    rewrite (andb_comm (negb f)).
    destruct (code_prog parse _ d b) as [[ob db]|x]; [|reflexivity]. cbn [with_stack bind fst snd].
    cbn [read_lines]. rewrite (step_endif _ _ _ _ H3). reflexivity.
Qed.

(* inactive places: nothing is processed and no definition changes *)
Lemma inactive_ref :
  (forall p, forall d, exists o, ref_prog parse false d p = Ok (o, d)) /\
  (forall c, forall d t, exists o, ref_chain parse false t d c = Ok (o, d)).
Proof.
  apply prog_chain_ind.
  - intros d. eexists; reflexivity.
  - intros l r IH d. unf; cbn [plain_defs]. destruct (IH d) as [o E]. rewrite E. eexists; reflexivity.
  - intros i b IHb c IHc r IHr d. unf; cbn [cond_if bind andb].
    destruct (IHb d) as [ob Eb]. rewrite Eb. cbn [bind fst snd].
    destruct (IHc d false) as [oc Ec]. rewrite Ec. cbn [bind fst snd].
    destruct (IHr d) as [o E]. rewrite E. eexists; reflexivity.
  - intros e d t. eexists; reflexivity.
  - intros l b IHb c IHc d t. unf; cbn [cond_if bind andb].
    destruct (IHb d) as [ob Eb]. rewrite Eb. cbn [bind fst snd].
    destruct (IHc d (t || false)) as [oc Ec]. rewrite Ec. eexists; reflexivity.
  - intros l b IHb e d t. unf; cbn [andb]. destruct (IHb d) as [ob Eb]. rewrite Eb. eexists; reflexivity.
Qed.

(* in an inactive place the code drops everything the reference drops *)
Lemma inactive_same :
  (forall p, forall d o d', code_prog parse false d p = Ok (o, d') -> ref_prog parse false d p = Ok (o, d')) /\
  (forall c, forall d f t o d', code_chain parse false f d c = Ok (o, d') -> ref_chain parse false t d c = Ok (o, d')).
Proof.
  apply prog_chain_ind.
  - intros d o d' H. exact H.
  - intros l r IH d o d' H. unf_all.
    apply bind_ok in H. destruct H as ([o1 d1] & H1 & H2). rewrite (IH _ _ _ H1). exact H2.
  - intros i b IHb c IHc r IHr d o d' H. unf_all; cbn [cond_if bind andb] in *.
    apply bind_ok in H. destruct H as (v & Hv & H).
    apply bind_ok in H. destruct H as ([ob db] & Hb & H).
    apply bind_ok in H. destruct H as ([oc dc] & Hc & H).
    apply bind_ok in H. destruct H as ([orr dr] & Hr & H). cbn [fst snd] in *.
    rewrite (IHb _ _ _ Hb). cbn [bind fst snd]. rewrite (IHc _ _ false _ _ Hc). cbn [bind fst snd].
    rewrite (IHr _ _ _ Hr). cbn [bind fst snd]. exact H.
  - intros e d f t o d' H. exact H.
  - intros l b IHb c IHc d f t o d' H. unf_all; cbn [cond_if bind andb] in *.
    apply bind_ok in H. destruct H as (v & Hv & H).
    apply bind_ok in H. destruct H as ([ob db] & Hb & H).
    apply bind_ok in H. destruct H as ([oc dc] & Hc & H). cbn [fst snd] in *.
    rewrite (IHb _ _ _ Hb). cbn [bind fst snd]. rewrite (IHc _ _ (t || false) _ _ Hc). exact H.
  - intros l b IHb e d f t o d' H. unf_all; cbn [andb] in *.
    apply bind_ok in H. destruct H as ([ob db] & Hb & H). rewrite (IHb _ _ _ Hb). exact H.
Qed.

(* the #if branch taken: the rest of the chain is dropped by both *)
Lemma taken_same : forall c d o d' act,
  code_chain parse act true d c = Ok (o, d') -> ref_chain parse act true d c = Ok (o, d').
Proof.
  induction c as [e|l b c IHc|l b e]; intros d o d' act H;
    unf_all; cbn [negb orb andb] in *; rewrite ?andb_false_r in *; cbn [andb cond_if bind] in *.
  - exact H.
  - apply bind_ok in H. destruct H as (v & Hv & H).
    apply bind_ok in H. destruct H as ([ob db] & Hb & H).
    apply bind_ok in H. destruct H as ([oc dc] & Hc & H). cbn [fst snd] in *.
    rewrite (proj1 inactive_same _ _ _ _ Hb). cbn [bind fst snd].
    rewrite (IHc _ _ _ _ Hc). exact H.
  - apply bind_ok in H. destruct H as ([ob db] & Hb & H).
    rewrite (proj1 inactive_same _ _ _ _ Hb). exact H.
Qed.

Lemma one_alt_same :
  (forall p, one_alt p -> forall act d o d',
     code_prog parse act d p = Ok (o, d') -> ref_prog parse act d p = Ok (o, d')) /\
  (forall c, one_alt_chain c -> forall act f d o d',
     code_chain parse act f d c = Ok (o, d') -> ref_chain parse act f d c = Ok (o, d')).
Proof.
  apply prog_chain_ind.
  - intros _ act d o d' H. exact H.
  - intros l r IH H1 act d o d' H. unf_all; cbn [one_alt one_alt_chain] in *.
    apply bind_ok in H. destruct H as ([o1 d1] & E1 & H2). rewrite (IH H1 _ _ _ _ E1). exact H2.
  - intros i b IHb c IHc r IHr (H1 & H2 & H3) [|] d o d' H.
    2:{ apply (proj1 inactive_same). exact H. }
    unf_all; cbn [cond_if] in *.
    apply bind_ok in H. destruct H as (v & Hv & H).
    apply bind_ok in H. destruct H as ([ob db] & Hb & H).
    apply bind_ok in H. destruct H as ([oc dc] & Hc & H).
    apply bind_ok in H. destruct H as ([orr dr] & Hr & H). cbn [fst snd] in *.
    rewrite Hv. cbn [bind]. rewrite (IHb H1 _ _ _ _ Hb). cbn [bind fst snd].
    rewrite (IHc H2 _ _ _ _ _ Hc). cbn [bind fst snd]. rewrite (IHr H3 _ _ _ _ Hr). exact H.
  - intros e _ act f d o d' H. exact H.
  - intros l b IHb c IHc H1 act f d o d' H. cbn [one_alt_chain one_alt] in H1.
    destruct f; [now apply taken_same|]. destruct act; [|now apply (proj2 inactive_same) with (f := false)].
    destruct c as [e| |]; try contradiction. unf_all; cbn [cond_if negb andb orb] in *.
    apply bind_ok in H. destruct H as (v & Hv & H).
    apply bind_ok in H. destruct H as ([ob db] & Hb & H). cbn [fst snd bind] in *.
    rewrite Hv. cbn [bind]. rewrite (IHb H1 _ _ _ _ Hb). exact H.
  - intros l b IHb e H1 act f d o d' H. unf_all; cbn [one_alt_chain one_alt] in *.
    apply bind_ok in H. destruct H as ([ob db] & Hb & H). rewrite (IHb H1 _ _ _ _ Hb). exact H.
Qed.
End P.

(* ---- translation of conditions ---- *)
Lemma str_app_cons_inv (a b : str) x y : x :: a = y :: b -> x = y /\ a = b.
Proof. intros H. injection H; auto. Qed.

Lemma word_char_not c x : is_word x = false -> is_word c = true -> Ascii.eqb c x = false.
Proof. intros H1 H2. apply Ascii.eqb_neq. intros ->. congruence. Qed.

(* a word followed by something that is neither a word character nor a blank
   contains no "defined " *)
Lemma after_prefix_word p : forall w z rest r,
  forallb is_word p = true -> forallb is_word w = true -> is_word z = false ->
  after_prefix p (w ++ z :: rest) = Some r -> exists w', w = p ++ w' /\ r = w' ++ z :: rest.
Proof.
  induction p as [|x p IH]; intros w z rest r Hp Hw Hz H.
  - cbn in H. injection H as <-. exists w. auto.
  - cbn [forallb] in Hp. apply andb_true_iff in Hp. destruct Hp as [Hx Hp].
    destruct w as [|y w]; cbn [app after_prefix] in H.
    + rewrite (word_char_not x z Hz Hx) in H. discriminate.
    + cbn [forallb] in Hw. apply andb_true_iff in Hw. destruct Hw as [Hy Hw].
      destruct (Ascii.eqb x y) eqn:E; [|discriminate]. apply Ascii.eqb_eq in E. subst y.
      destruct (IH _ _ _ _ Hp Hw Hz H) as (w' & -> & ->). exists w'. auto.
Qed.

Lemma space_not_word c : is_space c = true -> is_word c = false.
Proof.
  destruct c as [b0 b1 b2 b3 b4 b5 b6 b7].
  destruct b0, b1, b2, b3, b4, b5, b6, b7; vm_compute; congruence.
Qed.

Lemma match_defined_word w z rest :
  forallb is_word w = true -> is_word z = false -> is_space z = false ->
  match_defined (w ++ z :: rest) = None.
Proof.
  intros Hw Hz Hs. unfold match_defined.
  destruct (after_prefix (L "defined") (w ++ z :: rest)) as [r|] eqn:E; [|reflexivity].
  destruct (@after_prefix_word (L "defined") w z rest r eq_refl Hw Hz E) as (w' & E1 & E2).
  subst r. destruct w' as [|c w']; cbn [app].
  - now rewrite Hs.
  - destruct (is_space c) eqn:Es; [|reflexivity]. apply space_not_word in Es.
    subst w. rewrite forallb_app in Hw. apply andb_true_iff in Hw. destruct Hw as [_ Hw].
    cbn [forallb] in Hw. rewrite Es in Hw. discriminate.
Qed.

(* a copied word *)
Lemma translate_word : forall w z rest fuel,
  forallb is_word w = true -> is_word z = false -> is_space z = false ->
  length (w ++ z :: rest) <= fuel ->
  translate fuel None (w ++ z :: rest) = w ++ translate (fuel - length w) None (z :: rest).
Proof.
  induction w as [|c w IH]; intros z rest fuel Hw Hz Hs Hf.
  - cbn [app length]. now rewrite Nat.sub_0_r.
  - assert (MD := match_defined_word (c :: w) z rest Hw Hz Hs).
    cbn [forallb] in Hw. apply andb_true_iff in Hw. destruct Hw as [Hc Hw].
    destruct fuel as [|fuel]; [cbn in Hf; lia|]. cbn [app length] in *.
    cbn [translate].
    rewrite (word_char_not c """"%char eq_refl Hc), (word_char_not c "'"%char eq_refl Hc).
    cbn [orb]. change (L "&&") with ["&"; "&"]%char. change (L "||") with ["|"; "|"]%char.
    cbn [after_prefix].
    rewrite (Ascii.eqb_sym "&"%char), (word_char_not c "&"%char eq_refl Hc).
    rewrite (Ascii.eqb_sym "|"%char), (word_char_not c "|"%char eq_refl Hc).
    rewrite (word_char_not c "!"%char eq_refl Hc), MD.
    rewrite IH by (auto; lia). cbn [Nat.sub]. reflexivity.
Qed.

(* single steps on other characters *)
Definition plain_char (c : ascii) : bool :=
  negb (Ascii.eqb c """" || Ascii.eqb c "'" || Ascii.eqb c "&" || Ascii.eqb c "|" || Ascii.eqb c "!" || Ascii.eqb c "d").
Lemma translate_plain c t fuel : plain_char c = true ->
  translate (S fuel) None (c :: t) = c :: translate fuel None t.
Proof.
  unfold plain_char. intros H. apply negb_true_iff in H.
  repeat (apply orb_false_iff in H; destruct H as [H ?]).
  cbn [translate]. rewrite H, H4. cbn [orb].
  change (L "&&") with ["&"; "&"]%char. change (L "||") with ["|"; "|"]%char. cbn [after_prefix].
  rewrite (Ascii.eqb_sym "&"%char), (Ascii.eqb_sym "|"%char), H3, H2, H1.
  unfold match_defined. change (L "defined") with ["d";"e";"f";"i";"n";"e";"d"]%char. cbn [after_prefix].
  rewrite (Ascii.eqb_sym "d"%char), H0. reflexivity.
Qed.

(* output independent of surplus fuel *)
Lemma match_defined_len s w r : match_defined s = Some (w, r) -> length r < length s.
Proof.
  unfold match_defined. destruct (after_prefix (L "defined") s) as [[|c q]|] eqn:E; try discriminate.
  apply after_prefix_some in E. subst s. destruct (is_space c); [|discriminate].
  destruct (takewhile is_word (dropwhile is_space q)) as [|a b] eqn:Et; [discriminate|].
  intros H. injection H as <- <-.
  destruct (dropwhile_app is_space q) as (p1 & E1 & _).
  destruct (dropwhile_app is_word (dropwhile is_space q)) as (p2 & E2 & _).
  assert (length (dropwhile is_space q) <= length q) by (rewrite E1 at 2; rewrite app_length; lia).
  assert (length (dropwhile is_word (dropwhile is_space q)) <= length (dropwhile is_space q))
    by (rewrite E2 at 2; rewrite app_length; lia).
  rewrite app_length. cbn [length]. lia.
Qed.

Lemma translate_fuel : forall f1 f2 q s, length s <= f1 -> length s <= f2 ->
  translate f1 q s = translate f2 q s.
Proof.
  induction f1 as [|f1 IH]; intros f2 q s H1 H2.
  - destruct s; [|cbn in H1; lia]. destruct f2; reflexivity.
  - destruct s as [|c t]; [destruct f2; reflexivity|].
    destruct f2 as [|f2]; [cbn in H2; lia|]. cbn [length] in *. cbn [translate].
    destruct (Ascii.eqb c """" || Ascii.eqb c "'"); [f_equal; apply IH; lia|].
    destruct q; [f_equal; apply IH; lia|].
    destruct (after_prefix (L "&&") (c :: t)) as [r|] eqn:E1.
    { apply after_prefix_some in E1. apply (f_equal (@length _)) in E1. rewrite app_length in E1. cbn in E1.
      f_equal; apply IH; lia. }
    destruct (after_prefix (L "||") (c :: t)) as [r|] eqn:E2.
    { apply after_prefix_some in E2. apply (f_equal (@length _)) in E2. rewrite app_length in E2. cbn in E2.
      f_equal; apply IH; lia. }
    destruct (Ascii.eqb c "!"); [f_equal; apply IH; lia|].
    destruct (match_defined (c :: t)) as [[w r]|] eqn:E3.
    { apply match_defined_len in E3. cbn [length] in E3. do 3 f_equal. apply IH; lia. }
    f_equal. apply IH; lia.
Qed.

(* [tr s]: translation outside quotes *)
Definition tr (s : str) : str := translate_line s.
Lemma tr_word w z rest :
  forallb is_word w = true -> is_word z = false -> is_space z = false ->
  tr (w ++ z :: rest) = w ++ tr (z :: rest).
Proof.
  intros H1 H2 H3. unfold tr, translate_line. rewrite translate_word by auto. f_equal.
  apply translate_fuel; rewrite ?app_length; cbn [length]; lia.
Qed.
Lemma tr_plain c t : plain_char c = true -> tr (c :: t) = c :: tr t.
Proof. intros H. unfold tr, translate_line. cbn [length]. now rewrite translate_plain. Qed.
Lemma tr_and t : tr (L "&&" ++ t) = L "and" ++ tr t.
Proof.
  unfold tr, translate_line. change (L "&&" ++ t) with ("&"%char :: "&"%char :: t). cbn [length].
  change (translate (S (S (length t))) None ("&"%char :: "&"%char :: t))
    with (L "and" ++ translate (S (length t)) None t).
  f_equal. apply translate_fuel; lia.
Qed.
Lemma tr_or t : tr (L "||" ++ t) = L "or" ++ tr t.
Proof.
  unfold tr, translate_line. change (L "||" ++ t) with ("|"%char :: "|"%char :: t). cbn [length].
  change (translate (S (S (length t))) None ("|"%char :: "|"%char :: t))
    with (L "or" ++ translate (S (length t)) None t).
  f_equal. apply translate_fuel; lia.
Qed.
Lemma tr_not t : tr ("!"%char :: t) = L "not" ++ tr t.
Proof. reflexivity. Qed.
Lemma takewhile_word w z rest : forallb is_word w = true -> is_word z = false ->
  takewhile is_word (w ++ z :: rest) = w /\ dropwhile is_word (w ++ z :: rest) = z :: rest.
Proof.
  intros H1 H2. induction w as [|c w IH]; cbn [app takewhile dropwhile].
  - now rewrite H2.
  - cbn [forallb] in H1. apply andb_true_iff in H1. destruct H1 as [Hc Hw]. rewrite Hc.
    destruct (IH Hw) as [-> ->]. auto.
Qed.
Lemma translate_defined fuel t w r : match_defined ("d"%char :: t) = Some (w, r) ->
  translate (S fuel) None ("d"%char :: t) = L "defined (" ++ w ++ L ")" ++ translate fuel None r.
Proof.
  intros M. cbn [translate]. change (Ascii.eqb "d" """" || Ascii.eqb "d" "'") with false. cbv iota.
  change (after_prefix (L "&&") ("d"%char :: t)) with (@None str).
  change (after_prefix (L "||") ("d"%char :: t)) with (@None str).
  change (Ascii.eqb "d" "!") with false. cbv iota. now rewrite M.
Qed.
Lemma tr_defined w z rest : w <> [] ->
  forallb is_word w = true -> is_word z = false ->
  tr (L "defined " ++ w ++ z :: rest) = L "defined (" ++ w ++ L ")" ++ tr (z :: rest).
Proof.
  intros Hn H1 H2.
  assert (MD : match_defined (L "defined " ++ w ++ z :: rest) = Some (w, z :: rest)).
  { unfold match_defined. change (L "defined ") with (L "defined" ++ [" "%char]). rewrite <- app_assoc.
    rewrite after_prefix_app. cbn [app]. change (is_space " ") with true. cbv iota.
    assert (D : dropwhile is_space (w ++ z :: rest) = w ++ z :: rest).
    { destruct w as [|c w]; [congruence|]. cbn [app dropwhile]. destruct (is_space c) eqn:E; [|reflexivity].
      apply space_not_word in E. cbn [forallb] in H1. rewrite E in H1. discriminate. }
    rewrite D. destruct (takewhile_word w z rest H1 H2) as [-> ->]. destruct w; [congruence|reflexivity]. }
  unfold tr, translate_line. rewrite app_length. change (length (L "defined ")) with 8. cbn [plus].
  change (L "defined " ++ w ++ z :: rest) with ("d"%char :: (L "efined " ++ w ++ z :: rest)) in *.
  rewrite (translate_defined _ _ _ _ MD). do 3 f_equal.
  apply translate_fuel; rewrite ?app_length; cbn [length]; lia.
Qed.

Lemma ident_word n : ident n = true -> n <> [] /\ forallb is_word n = true.
Proof.
  destruct n as [|c n]; [discriminate|]. unfold ident. intros H.
  apply andb_true_iff in H. destruct H as [H _]. apply andb_true_iff in H. destruct H as [_ H]. split; [congruence|exact H].
Qed.

(* translation of a whole condition followed by a blank or parenthesis or end *)
Lemma tr_cond : forall e t, names_ok e -> tr (c_text e ++ t) = py_text e ++ tr t.
Proof.
  induction e as [n|n|n|e IH|a IHa b IHb|a IHa b IHb]; intros t H; cbn [names_ok c_text py_text] in *.
  - apply ident_word in H. destruct H as [Hn Hw].
    change (L "defined(") with (L "defined" ++ ["("%char]). rewrite <- !app_assoc. cbn [app].
    rewrite (tr_word (L "defined")) by reflexivity. f_equal.
    rewrite tr_plain by reflexivity. f_equal. change (L ")" ++ t) with (")"%char :: t).
    rewrite tr_word by auto. rewrite (tr_plain ")"%char) by reflexivity. reflexivity.
  - apply ident_word in H. destruct H as [Hn Hw].
    change (L "(defined ") with ("("%char :: L "defined "). rewrite <- !app_assoc. cbn [app].
    rewrite tr_plain by reflexivity. change (L ")" ++ t) with (")"%char :: t).
    rewrite tr_defined by auto. rewrite tr_plain by reflexivity.
    change (L "(defined (") with ("("%char :: L "defined ("). cbn [app]. rewrite <- ?app_assoc. reflexivity.
  - apply ident_word in H. destruct H as [Hn Hw].
    change (L "!defined(") with ("!"%char :: L "defined" ++ ["("%char]). rewrite <- !app_assoc. cbn [app].
    rewrite tr_not, <- !app_assoc. cbn [app]. rewrite (tr_word (L "defined")) by reflexivity.
    rewrite tr_plain by reflexivity. change (L ")" ++ t) with (")"%char :: t).
    rewrite tr_word by auto. rewrite tr_plain by reflexivity.
    change (L "notdefined(") with (L "not" ++ L "defined" ++ ["("%char]). rewrite <- !app_assoc. reflexivity.
  - change (L "(! ") with ["("; "!"; " "]%char. change (L "(not ") with ("("%char :: L "not" ++ [" "%char]).
    rewrite <- !app_assoc. cbn [app]. rewrite tr_plain by reflexivity. rewrite tr_not, tr_plain by reflexivity.
    rewrite IH by exact H. change (L ")" ++ t) with (")"%char :: t). rewrite tr_plain by reflexivity.
    rewrite <- !app_assoc. cbn [app]. reflexivity.
  - destruct H as [Ha Hb].
    change (L "(") with ["("%char]. change (L " && ") with (" "%char :: L "&&" ++ [" "%char]).
    change (L " and ") with (" "%char :: L "and" ++ [" "%char]).
    rewrite <- !app_assoc. cbn [app]. rewrite tr_plain by reflexivity.
    rewrite IHa by exact Ha. rewrite tr_plain by reflexivity. rewrite <- !app_assoc. cbn [app].
    rewrite tr_and, tr_plain by reflexivity. rewrite IHb by exact Hb.
    change (L ")" ++ t) with (")"%char :: t). rewrite tr_plain by reflexivity. reflexivity.
  - destruct H as [Ha Hb].
    change (L "(") with ["("%char]. change (L " || ") with (" "%char :: L "||" ++ [" "%char]).
    change (L " or ") with (" "%char :: L "or" ++ [" "%char]).
    rewrite <- !app_assoc. cbn [app]. rewrite tr_plain by reflexivity.
    rewrite IHa by exact Ha. rewrite tr_plain by reflexivity. rewrite <- !app_assoc. cbn [app].
    rewrite tr_or, tr_plain by reflexivity. rewrite IHb by exact Hb.
    change (L ")" ++ t) with (")"%char :: t). rewrite tr_plain by reflexivity. reflexivity.
Qed.

Lemma tree_value d : forall e fuel, names_ok e -> depth (py_tree e) <= fuel ->
  item_value fuel d (py_tree e) = Ok (VBool (c_value d e)).
Proof.
  induction e as [n|n|n|e IH|a IHa b IHb|a IHa b IHb]; intros [|fuel] H Hf;
    cbn [py_tree depth fold_right] in Hf; try lia; cbn [names_ok] in H; cbn [py_tree item_value c_value].
  - reflexivity.
  - reflexivity.
  - reflexivity.
  - rewrite IH by (auto; lia). reflexivity.
  - destruct H as [Ha Hb]. rewrite IHa, IHb by (auto; lia). cbn [bind preproc_bool].
    destruct (c_value d a); reflexivity.
  - destruct H as [Ha Hb]. rewrite IHa, IHb by (auto; lia). cbn [bind preproc_bool].
    destruct (c_value d a); reflexivity.
Qed.

(* c_text never begins or ends with a blank, and has no newline *)
Lemma c_text_hd e : names_ok e -> exists c t, c_text e = c :: t /\ is_space c = false.
Proof. destruct e; intros _; cbn [c_text]; eexists; eexists; split; try reflexivity. Qed.
Lemma c_text_last e : exists t, c_text e = t ++ [")"%char].
Proof.
  destruct e; cbn [c_text]; change (L ")") with [")"%char]; rewrite ?app_assoc; eexists; reflexivity.
Qed.
Lemma c_text_no_nl e : names_ok e -> forallb (fun c => negb (Ascii.eqb c nl)) (c_text e) = true.
Proof.
  assert (W : forall n, ident n = true -> forallb (fun c => negb (Ascii.eqb c nl)) n = true).
  { intros n H. apply ident_word in H. destruct H as [_ H]. apply forallb_forall. intros x Hx.
    apply (proj1 (forallb_forall _ _)) with (x := x) in H; [|exact Hx].
    now rewrite (word_char_not x nl eq_refl H). }
  induction e as [n|n|n|e IH|a IHa b IHb|a IHa b IHb]; cbn [names_ok c_text]; intros H;
    rewrite !forallb_app; try (rewrite (W n H); reflexivity).
  - rewrite IH by exact H. reflexivity.
  - destruct H as [H1 H2]. rewrite IHa, IHb by auto. reflexivity.
  - destruct H as [H1 H2]. rewrite IHa, IHb by auto. reflexivity.
Qed.
Lemma takewhile_all {A} (f : A -> bool) l : forallb f l = true -> takewhile f l = l.
Proof. induction l as [|x l IH]; cbn; [reflexivity|]. destruct (f x); cbn; [|discriminate]. intros H. now rewrite IH. Qed.

Lemma strip_c_text e : names_ok e -> strip (c_text e) = c_text e.
Proof.
  intros H. destruct (c_text_hd e H) as (c & t & E & Hc). destruct (c_text_last e) as (t' & E').
  unfold strip, lstrip. rewrite E at 1. cbn [dropwhile]. rewrite Hc, <- E. unfold rstrip.
  rewrite E', rev_app_distr. cbn [rev app dropwhile]. change (is_space ")") with false. cbv iota.
  cbn [rev]. now rewrite rev_involutive.
Qed.

Lemma if_line_value parse d e (kw : str) : names_ok e -> kw = L "#if " \/ kw = L "#elif " ->
  parse (py_text e) = Some [py_tree e] ->
  process_if_line parse (kw ++ c_text e) d = Ok (c_value d e, true).
Proof.
  intros H Hk Hp.
  assert (M : match_ifelif (kw ++ c_text e) = Some (c_text e)).
  { unfold match_ifelif. destruct Hk as [-> | ->];
      [change (hash_lit (L "elif") (L "#if " ++ c_text e)) with (@None str);
       change (hash_lit (L "if") (L "#if " ++ c_text e)) with (Some (" "%char :: c_text e))
      |change (hash_lit (L "elif") (L "#elif " ++ c_text e)) with (Some (" "%char :: c_text e))];
      change (is_space " ") with true; cbv iota beta zeta;
      unfold to_eol; now rewrite takewhile_all by (apply c_text_no_nl; exact H). }
  unfold process_if_line. rewrite M, strip_c_text by exact H. unfold parse_line.
  pose proof (tr_cond e [] H) as T. rewrite app_nil_r in T. unfold tr in T. rewrite T.
  change (translate_line []) with (@nil ascii). rewrite app_nil_r, Hp.
  unfold expr_value. rewrite tree_value by auto. reflexivity.
Qed.

(* ---- what inactive places produce ---- *)
Definition no_text (l : str) : Prop := l = [] \/ skip_line l = true.

Lemma inactive_no_text parse :
  (forall p d o d', code_prog parse false d p = Ok (o, d') -> d' = d /\ Forall no_text o) /\
  (forall c d f o d', code_chain parse false f d c = Ok (o, d') -> d' = d /\ Forall no_text o).
Proof.
  apply prog_chain_ind.
  - intros d o d' H. cbn in H. injection H as <- <-. auto.
  - intros l r IH d o d' H. rewrite cp_line in H.
    apply bind_ok in H. destruct H as ([o1 d1] & E1 & H2). cbn [plain_defs] in E1.
    destruct (IH _ _ _ E1) as [-> F]. cbn [fst snd] in H2. injection H2 as <- <-. split; [reflexivity|].
    constructor; [|exact F]. unfold no_text, plain_out. destruct (skip_line l) eqn:E; [auto|].
    left. destruct (dir_of l); reflexivity.
  - intros i b IHb c IHc r IHr d o d' H. rewrite cp_cond in H. cbn [andb] in H.
    apply bind_ok in H. destruct H as (v & Hv & H).
    apply bind_ok in H. destruct H as ([ob db] & Hb & H).
    apply bind_ok in H. destruct H as ([oc dc] & Hc & H).
    apply bind_ok in H. destruct H as ([orr dr] & Hr & H). cbn [fst snd] in *.
    destruct (IHb _ _ _ Hb) as [-> Fb]. destruct (IHc _ _ _ _ Hc) as [-> Fc]. destruct (IHr _ _ _ Hr) as [-> Fr].
    injection H as <- <-. split; [reflexivity|]. constructor; [now left|].
    apply Forall_app; split; [exact Fb|]. apply Forall_app; auto.
  - intros e d f o d' H. rewrite cc_end in H. injection H as <- <-. split; [reflexivity|]. repeat constructor.
  - intros l b IHb c IHc d f o d' H. rewrite cc_elif in H. cbn [andb] in H.
    apply bind_ok in H. destruct H as (v & Hv & H).
    apply bind_ok in H. destruct H as ([ob db] & Hb & H).
    apply bind_ok in H. destruct H as ([oc dc] & Hc & H). cbn [fst snd] in *.
    destruct (IHb _ _ _ Hb) as [-> Fb]. destruct (IHc _ _ _ _ Hc) as [-> Fc].
    injection H as <- <-. split; [reflexivity|]. constructor; [now left|]. apply Forall_app; auto.
  - intros l b IHb e d f o d' H. rewrite cc_else in H. cbn [andb] in H.
    apply bind_ok in H. destruct H as ([ob db] & Hb & H). destruct (IHb _ _ _ Hb) as [-> Fb].
    cbn [fst snd] in H. injection H as <- <-. split; [reflexivity|]. constructor; [now left|].
    apply Forall_app; split; [exact Fb|repeat constructor].
Qed.

Lemma taken_no_text parse : forall c act d o d',
  code_chain parse act true d c = Ok (o, d') -> d' = d /\ Forall no_text o.
Proof.
  induction c as [e|l b c IHc|l b e]; intros act d o d' H.
  - rewrite cc_end in H. injection H as <- <-. split; [reflexivity|]. repeat constructor.
  - rewrite cc_elif in H. cbn [negb] in H. rewrite andb_false_r in H. cbn [andb] in H.
    apply bind_ok in H. destruct H as (v & Hv & H).
    apply bind_ok in H. destruct H as ([ob db] & Hb & H).
    apply bind_ok in H. destruct H as ([oc dc] & Hc & H). cbn [fst snd] in *.
    destruct (proj1 (inactive_no_text parse) _ _ _ _ Hb) as [-> Fb]. destruct (IHc _ _ _ _ Hc) as [-> Fc].
    injection H as <- <-. split; [reflexivity|]. constructor; [now left|]. apply Forall_app; auto.
  - rewrite cc_else in H. cbn [negb] in H. rewrite andb_false_r in H.
    apply bind_ok in H. destruct H as ([ob db] & Hb & H).
    destruct (proj1 (inactive_no_text parse) _ _ _ _ Hb) as [-> Fb].
    cbn [fst snd] in H. injection H as <- <-. split; [reflexivity|]. constructor; [now left|].
    apply Forall_app; split; [exact Fb|repeat constructor].
Qed.

(* ---- definitions ---- *)
Lemma lookup_dset d k v k' : lookup (dset d k v) k' = if str_eqb k k' then Some v else lookup d k'.
Proof. reflexivity. Qed.
Lemma lookup_ddel d k k' : lookup (ddel d k) k' = if str_eqb k k' then None else lookup d k'.
Proof.
  induction d as [|[a b] d IH]; cbn [ddel List.filter lookup fst].
  - destruct (str_eqb k k'); reflexivity.
  - unfold ddel in IH. destruct (str_eqb a k) eqn:E; cbn [negb].
    + rewrite IH. apply str_eqb_eq in E. subst a. destruct (str_eqb k k'); reflexivity.
    + cbn [lookup]. destruct (str_eqb a k') eqn:E2; [|exact IH].
      apply str_eqb_eq in E2. subst a. apply str_eqb_neq in E.
      destruct (str_eqb k k') eqn:E3; [|reflexivity]. apply str_eqb_eq in E3. congruence.
Qed.

Definition no_space (v : str) : bool := forallb (fun c => negb (is_space c)) v.
Lemma no_space_last v : v <> [] -> no_space v = true -> exists t c, v = t ++ [c] /\ is_space c = false.
Proof.
  intros Hn H. destruct (exists_last Hn) as (t & c & ->). exists t, c. split; [reflexivity|].
  unfold no_space in H. rewrite forallb_app in H. apply andb_true_iff in H. destruct H as [_ H].
  cbn in H. now destruct (is_space c).
Qed.
Lemma rstrip_last t c : is_space c = false -> rstrip (t ++ [c]) = t ++ [c].
Proof.
  intros H. unfold rstrip. rewrite rev_app_distr. cbn [rev app dropwhile]. rewrite H. cbn [rev].
  now rewrite rev_involutive.
Qed.
Lemma strip_hash s t c : s = t ++ [c] -> is_space c = false -> strip ("#"%char :: s) = "#"%char :: s.
Proof.
  intros -> H. unfold strip. change (lstrip ("#"%char :: t ++ [c])) with ("#"%char :: t ++ [c]).
  apply (rstrip_last ("#"%char :: t) c H).
Qed.
Lemma word_no_space n : forallb is_word n = true -> no_space n = true.
Proof.
  intros H. apply forallb_forall. intros x Hx. apply (proj1 (forallb_forall _ _) H) in Hx.
  destruct (is_space x) eqn:E; [|reflexivity]. apply space_not_word in E. congruence.
Qed.
Lemma dropwhile_no_space w t : w <> [] -> no_space w = true -> dropwhile is_space (w ++ t) = w ++ t.
Proof.
  destruct w as [|c w]; [congruence|]. intros _ H. cbn [app dropwhile]. cbn in H.
  destruct (is_space c); [discriminate|reflexivity].
Qed.

Lemma classify_define n v : ident n = true -> v <> [] -> no_space v = true ->
  classify (L "#define " ++ n ++ " "%char :: v) = DDefine n v.
Proof.
  intros Hi Hv Hs. apply ident_word in Hi. destruct Hi as [Hn Hw].
  unfold classify.
  change (lit_ws_rest (L "ifdef") (L "#define " ++ n ++ " "%char :: v)) with (@None str).
  change (lit_ws_rest (L "ifndef") (L "#define " ++ n ++ " "%char :: v)) with (@None str).
  change (hash_lit (L "if") (L "#define " ++ n ++ " "%char :: v)) with (@None str).
  change (hash_lit (L "elif") (L "#define " ++ n ++ " "%char :: v)) with (@None str).
  change (hash_lit (L "else") (L "#define " ++ n ++ " "%char :: v)) with (@None str).
  change (hash_lit (L "endif") (L "#define " ++ n ++ " "%char :: v)) with (@None str).
  cbv iota. unfold word_then.
  change (hash_lit (L "define") (L "#define " ++ n ++ " "%char :: v)) with (Some (" "%char :: n ++ " "%char :: v)).
  change (is_space " ") with true. cbv iota zeta.
  rewrite dropwhile_no_space by (auto using word_no_space).
  destruct (takewhile_word n " "%char v Hw eq_refl) as [-> ->].
  destruct n as [|c0 n0]; [congruence|]. change (is_space " ") with true. cbv iota.
  rewrite <- (app_nil_r v) at 1. rewrite dropwhile_no_space by auto. rewrite app_nil_r.
  now rewrite takewhile_all.
Qed.
Lemma classify_undef n : ident n = true -> classify (L "#undef " ++ n) = DUndef n.
Proof.
  intros Hi. apply ident_word in Hi. destruct Hi as [Hn Hw].
  unfold classify.
  change (lit_ws_rest (L "ifdef") (L "#undef " ++ n)) with (@None str).
  change (lit_ws_rest (L "ifndef") (L "#undef " ++ n)) with (@None str).
  change (hash_lit (L "if") (L "#undef " ++ n)) with (@None str).
  change (hash_lit (L "elif") (L "#undef " ++ n)) with (@None str).
  change (hash_lit (L "else") (L "#undef " ++ n)) with (@None str).
  change (hash_lit (L "endif") (L "#undef " ++ n)) with (@None str).
  change (word_then (L "define") (L "#undef " ++ n)) with (@None (str * str)).
  cbv iota. unfold word_then.
  change (hash_lit (L "undef") (L "#undef " ++ n)) with (Some (" "%char :: n)).
  change (is_space " ") with true. cbv iota zeta.
  assert (D : dropwhile is_space n = n).
  { rewrite <- (app_nil_r n) at 1. rewrite dropwhile_no_space by (auto using word_no_space). apply app_nil_r. }
  rewrite D, takewhile_all by exact Hw. destruct n; [congruence|reflexivity].
Qed.
Lemma process_define parse st d n v : in_true_region st = true -> ident n = true -> v <> [] -> no_space v = true ->
  process_line parse st d (L "#define " ++ n ++ " "%char :: v) = Ok (true, st, dset d n (VStr v)).
Proof.
  intros Ht Hi Hv Hs. unfold process_line.
  change (is_preproc_line (L "#define " ++ n ++ " "%char :: v)) with true. cbv iota zeta.
  assert (S : strip (L "#define " ++ n ++ " "%char :: v) = L "#define " ++ n ++ " "%char :: v).
  { destruct (no_space_last v Hv Hs) as (t & c & -> & Hc).
    change (L "#define " ++ n ++ " "%char :: t ++ [c]) with ("#"%char :: (L "define " ++ n ++ " "%char :: t ++ [c])).
    apply (strip_hash _ (L "define " ++ n ++ " "%char :: t) c); [|exact Hc].
    rewrite <- !app_assoc. reflexivity. }
  rewrite S, classify_define by auto. now rewrite Ht.
Qed.
Lemma process_undef parse st d n : in_true_region st = true -> ident n = true ->
  process_line parse st d (L "#undef " ++ n) = Ok (true, st, ddel d n).
Proof.
  intros Ht Hi. unfold process_line.
  change (is_preproc_line (L "#undef " ++ n)) with true. cbv iota zeta.
  assert (S : strip (L "#undef " ++ n) = L "#undef " ++ n).
  { destruct (ident_word n Hi) as [Hn Hw].
    destruct (no_space_last n Hn (word_no_space n Hw)) as (t & c & -> & Hc).
    change (L "#undef " ++ t ++ [c]) with ("#"%char :: (L "undef " ++ t ++ [c])).
    apply (strip_hash _ (L "undef " ++ t) c); [|exact Hc]. now rewrite <- !app_assoc. }
  rewrite S, classify_undef by auto. now rewrite Ht.
Qed.

Lemma classify_ifdef n : ident n = true -> classify (L "#ifdef " ++ n) = DIfdef n.
Proof.
  intros H. destruct (ident_word n H) as [Hn Hw]. unfold classify, lit_ws_rest.
  change (hash_lit (L "ifdef") (L "#ifdef " ++ n)) with (Some (" "%char :: n)). cbv iota.
  change (is_space " ") with true. cbv iota. pose proof (dropwhile_no_space n [] Hn (word_no_space n Hw)) as E.
  rewrite app_nil_r in E. rewrite E. unfold to_eol. rewrite takewhile_all; [reflexivity|].
  apply forallb_forall. intros c I. rewrite forallb_forall in Hw. specialize (Hw c I).
  destruct (Ascii.eqb c nl) eqn:X; [|reflexivity]. apply Ascii.eqb_eq in X as ->. discriminate.
Qed.
Lemma classify_ifndef n : ident n = true -> classify (L "#ifndef " ++ n) = DIfndef n.
Proof.
  intros H. destruct (ident_word n H) as [Hn Hw]. unfold classify, lit_ws_rest.
  change (hash_lit (L "ifdef") (L "#ifndef " ++ n)) with (@None str).
  change (hash_lit (L "ifndef") (L "#ifndef " ++ n)) with (Some (" "%char :: n)). cbv iota.
  change (is_space " ") with true. cbv iota. pose proof (dropwhile_no_space n [] Hn (word_no_space n Hw)) as E.
  rewrite app_nil_r in E. rewrite E. unfold to_eol. rewrite takewhile_all; [reflexivity|].
  apply forallb_forall. intros c I. rewrite forallb_forall in Hw. specialize (Hw c I).
  destruct (Ascii.eqb c nl) eqn:X; [|reflexivity]. apply Ascii.eqb_eq in X as ->. discriminate.
Qed.
Lemma strip_directive kw n : ident n = true -> strip ("#"%char :: kw ++ n) = "#"%char :: kw ++ n.
Proof.
  intros H. destruct (ident_word n H) as [Hn Hw].
  destruct (no_space_last n Hn (word_no_space n Hw)) as (t & c & -> & Hc).
  apply (strip_hash _ (kw ++ t) c); [now rewrite app_assoc|exact Hc].
Qed.
Lemma translate_quoted q : (q = """"%char \/ q = "'"%char) -> forall body rest fuel,
  forallb (fun c => negb (Ascii.eqb c q)) body = true -> length (body ++ q :: rest) <= fuel ->
  exists fuel', length rest <= fuel' /\
    translate fuel (Some q) (body ++ q :: rest) = body ++ q :: translate fuel' None rest.
Proof.
  intros Q. induction body as [|c body IH]; intros rest fuel HB HL; cbn [app length] in *.
  - destruct fuel as [|fuel]; [lia|]. exists fuel. split; [lia|]. cbn [translate].
    rewrite Ascii.eqb_refl. assert (E : Ascii.eqb q """" || Ascii.eqb q "'" = true) by (destruct Q; subst; reflexivity).
    rewrite E. reflexivity.
  - cbn [forallb] in HB. apply andb_true_iff in HB as [Hc HB]. destruct fuel as [|fuel]; [lia|].
    destruct (IH rest fuel HB) as (f' & L' & E); [lia|]. exists f'. split; [exact L'|]. cbn [translate].
    apply negb_true_iff in Hc.
    assert (Hc' : Ascii.eqb q c = false) by (rewrite Ascii.eqb_sym; exact Hc). rewrite Hc'.
    destruct (Ascii.eqb c """" || Ascii.eqb c "'"); rewrite E; reflexivity.
Qed.
