(* ScanProps.v: properties C63 to C65. *)
From Verif Require Import Base PyStr LineModel LineSpec PreprocModel ScanModel ScanSpec ScanProofs MergeProofs MergeText FixedProofs.
Open Scope nat_scope.
Open Scope list_scope.

(* ---- C63 ---- *)
(* scanning a free-form line succeeds exactly when the line is well formed in its context,
   and then gives the columns and the context of ScanSpec.line_scan *)
Theorem C63_scan_free : forall line inc s d ci co s' d' cm,
  scan_free_line line inc s d = Ok (ci, co, s', d', cm) <->
  exists x x', flags s d x /\ flags s' d' x' /\ line_scan inc x line ci co cm x'.
Proof. exact scan_line. Qed.
Print Assumptions C63_scan_free.
Example C63_ex : line_scan true (Quote "'") (L "  &s', & ! no") (Some 2) (Some 7) (Some 9) Code.
Proof.
  assert (X : scan_free_line (L "  &s', & ! no") true true false = Ok (Some 2, Some 7, false, false, Some 9)) by reflexivity.
  apply C63_scan_free in X as (x & x' & F & F' & H). destruct F as [(D & _)|[(_ & _ & ->)|(D & _)]]; try discriminate. destruct F' as [(_ & _ & ->)|[(D & _)|(_ & D & _)]]; try discriminate. exact H.
Qed.
(* an ampersand in code that is not the end of the line is refused *)
Theorem C63_stray_ampersand : forall line inc s d x p, flags s d x -> (forall k, ~ opens line k) ->
  nth_error (rstrip line) p = Some "&"%char -> ctx_before x (rstrip line) p = Code -> ~ ends_here (skipn (S p) (rstrip line)) ->
  exists m, scan_free_line line inc s d = Raise m.
Proof.
  intros line inc s d x p F NO N C NE. destruct (scan_free_line line inc s d) as [((((ci & co) & s') & d') & cm)|m] eqn:E; [|eauto].
  apply C63_scan_free in E as (x1 & x' & F1 & _ & (_ & CK & _ & _ & (co1 & cm1 & SC & _) & _)).
  assert (x1 = x) by (destruct (flags_q _ _ _ F) as [-> _]; now destruct (flags_q _ _ _ F1)). subst x1.
  assert (ci = None) by (destruct ci as [k|]; auto; exfalso; apply (NO k), CK; auto). subst ci. cbn [after_in skipn] in SC.
  exfalso. apply NE. exact (sc_ok _ _ _ _ _ SC p N C).
Qed.
Print Assumptions C63_stray_ampersand.
Example C63_ex2 : exists m, scan_free_line (L "a & b") false false false = Raise m. Proof. eexists. reflexivity. Qed.

(* ---- C64 ---- *)
(* Reading a free-form file applies the preprocessor and then merges the continued lines;
   no line may end in a backslash (those are joined by the line reader, C25). *)
Theorem C64_read_file : forall parse d lines out, (forall l, In l lines -> ends_bs (rstrip l) = false) ->
  (exists p, rf_file parse false d lines = Ok p /\ po_lines p = out) <->
  exists m, read_file parse d (map rstrip lines) = Ok m /\ merged m out.
Proof. intros parse d lines out H. apply rf_file_spec. intros l I. split; [apply rstrip_idem|auto]. Qed.
Print Assumptions C64_read_file.
(* the result is unique and has as many lines as the file *)
Lemma follow_length x b s bo : follow x b s bo -> length bo = length b.
Proof. induction 1; cbn; auto. Qed.
Lemma unfinished_length x b s bo : unfinished x b s bo -> length bo = length b.
Proof. induction 1; cbn; auto. Qed.
Theorem C64_line_count : forall lines out, merged lines out -> length out = length lines.
Proof.
  induction 1; cbn [length]; auto.
  - rewrite !app_length. apply follow_length in H2. lia.
  - f_equal. eapply unfinished_length; eauto.
Qed.
Print Assumptions C64_line_count.
Theorem C64_unique : forall lines o1 o2, merged lines o1 -> merged lines o2 -> o1 = o2.
Proof.
  intros lines o1 o2 M1 M2. assert (A : mrun [] mst0 lines = Ok o1) by (apply (proj1 (mrun_spec lines)); eauto). assert (B : mrun [] mst0 lines = Ok o2) by (apply (proj1 (mrun_spec lines)); eauto). congruence.
Qed.
Print Assumptions C64_unique.
(* a merged statement stands on one line: it is neither continued nor a comment, and its
   character contexts are closed *)
Theorem C64_statement_complete : forall l k cm x h b s bo, ~ skipped l -> line_scan false Code l None (Some k) cm x -> head_text l k x h -> follow x b s bo ->
  ~ skipped (h ++ s) /\ exists cm', line_scan false Code (h ++ s) None None cm' Code.
Proof. exact stmt_plain. Qed.
Print Assumptions C64_statement_complete.
Definition file1 := [L "call foo(a, & ! x"; L ""; L "! note"; L "     b, 'it&"; L "  &s', &"; L "#ifdef Q"; L " junk &"; L "#endif"; L " c) ! end"; L "x = 1"].
Example C64_ex : rf_text false file1 = Ok [L "call foo(a,     b, 'its',  c) ! end"; L ""; L "! note"; L ""; L ""; L ""; L ""; L ""; L ""; L "x = 1"] /\
  (forall l, In l file1 -> ends_bs (rstrip l) = false).
Proof. split; [vm_compute; reflexivity|]. intros l I. cbn in I. repeat (destruct I as [<-|I]; [reflexivity|]). destruct I. Qed.
(* words on both sides of the end of a line are run together: the blank before the
   ampersand is removed *)
Theorem C64_finding_words_joined : rf_text false [L "use &"; L "kinds"] = Ok [L "usekinds"; L ""].
Proof. vm_compute. reflexivity. Qed.
Print Assumptions C64_finding_words_joined.

(* ---- C65 ---- *)
Theorem C65_scan_fixed : forall l s d,
  (forall ci s' d' cm, scan_fixed_line l s d = Ok (ci, s', d', cm) ->
   exists x x', flags s d x /\ flags s' d' x' /\ (in_quote x -> is_cont l) /\
   ((is_cont l /\ ci = Some 5 /\ exists cm1, fscanned x (skipn 6 (rstrip l)) cm1 x' /\ cm = option_map (Nat.add 6) cm1) \/
    (~ is_cont l /\ ci = None /\ x' = x /\ exists k, is_fcomment l k /\ cm = Some k) \/
    (~ is_cont l /\ (forall k, ~ is_fcomment l k) /\ ci = None /\ fscanned x (rstrip l) cm x'))) /\
  ((exists m, scan_fixed_line l s d = Raise m) <-> (s = true /\ d = true) \/ ((s = true \/ d = true) /\ ~ is_cont l)).
Proof.
  intros l s d. split; [intros; now apply scan_fixed|]. unfold scan_fixed_line. cbv zeta. rewrite <- cont_iff. destruct (fixed_continue l).
  - rewrite andb_false_r. destruct (fixed_loop 6 (quote_of s d) (skipn 6 (rstrip l))). destruct s, d; cbn [andb]; split; intros H; try (destruct H as (m & H); discriminate); eauto; destruct H as [[A B]|[A B]]; congruence.
  - rewrite andb_true_r. destruct s, d; cbn [andb orb]; try (split; [intros _|eauto]; first [left; split; auto; fail|right; split; [auto|discriminate]]).
    split; [|intros [[A _]|[[A|A] _]]; discriminate]. intros (m & H). destruct (fixed_comment l) as [k|]; [destruct (fixed_loop (length (rstrip l)) (quote_of false false) (skipn (length (rstrip l)) (rstrip l)))|destruct (fixed_loop 0 (quote_of false false) (skipn 0 (rstrip l)))]; discriminate.
Qed.
Print Assumptions C65_scan_fixed.
Example C65_ex : is_cont (L "     & x") /\ is_fcomment (L "  ! x") 2 /\ ~ is_cont (L "     0x").
Proof.
  split; [exists "&"%char, (L " x"); split; [reflexivity|split; discriminate]|]. split; [right; split; [lia|exists (L " x"); reflexivity]|]. rewrite <- cont_iff. discriminate.
Qed.
(* a fixed-form file made of statements without comments on their first lines: each
   statement ends up on its first line, its continuation lines become empty and all other
   lines stay *)
Theorem C65_fixed_merge_partial : forall parse d sk bs lines p, map rstrip lines = sk ++ flat_map source bs ->
  (forall l, In l lines -> ends_bs (rstrip l) = false /\ is_preproc_line (rstrip l) = false) ->
  (forall l, In l sk -> fskipped l) -> (forall b, In b bs -> wf_statement b) ->
  rf_file parse true d lines = Ok p -> po_lines p = sk ++ flat_map result bs.
Proof.
  intros parse d sk bs lines p E P SK W H. pose proof (rf_fixed parse d lines) as R. rewrite H in R.
  assert (P2 : forall l, In l lines -> plain_line (rstrip l) /\ no_hash (rstrip l)) by (intros l I; destruct (P l I); split; [split; [apply rstrip_idem|auto]|auto]).
  specialize (R P2). rewrite E, frun_skips in R by auto. cbn [app] in R. destruct (frun sk mst0 (flat_map source bs)) as [out|] eqn:F; [|contradiction].
  apply frun_blocks in F; auto. congruence.
Qed.
Print Assumptions C65_fixed_merge_partial.
Definition stmt1 : fstatement := (L "      call foo(a,", [(false, L "C note"); (true, L "     & b)"); (false, [])]).
Definition stmt2 : fstatement := (L "      x = 1", []).
Example C65_ex2 : wf_statement stmt1 /\ wf_statement stmt2 /\ rf_text true (source stmt1 ++ source stmt2) = Ok (result stmt1 ++ result stmt2) /\
  result stmt1 = [L "      call foo(a, b)"; L "C note"; []; []].
Proof.
  assert (NC : forall l, existsb (Ascii.eqb "!") (rstrip l) = false -> no_comment l).
  { intros l H p N _. apply nth_error_In in N. assert (existsb (Ascii.eqb "!") (rstrip l) = true); [|congruence]. apply existsb_exists. exists "!"%char. auto. }
  split; [|split; [|split; [vm_compute; reflexivity|vm_compute; reflexivity]]].
  - split; [apply fskip_iff_f; reflexivity|]. split; [rewrite <- cont_iff; discriminate|]. split; [apply NC; reflexivity|]. intros mk c [[= <- <-]|[[= <- <-]|[[= <- <-]|[]]]].
    + apply fskip_iff. reflexivity.
    + split; [apply fskip_iff_f; reflexivity|apply cont_iff; reflexivity].
    + apply fskip_iff. reflexivity.
  - split; [apply fskip_iff_f; reflexivity|]. split; [rewrite <- cont_iff; discriminate|]. split; [apply NC; reflexivity|]. intros mk c [].
Qed.
(* with a comment on the first line of a continued statement its continuation is appended
   to the statement before *)
Theorem C65_inline_comment_refuted : rf_text true [L "      x = 1"; L "      call foo(a, ! first"; L "     & b)"] =
  Ok [L "      x = 1 b)"; L "      call foo(a, ! first"; []].
Proof. vm_compute. reflexivity. Qed.
Print Assumptions C65_inline_comment_refuted.
(* the text after column 72 is not ignored: a quote there opens a character context *)
Definition long_line := L "      x = 1                                                             it's".
Theorem C65_column_72_refuted : nth_error long_line 73 = Some "t"%char /\ exists m, rf_text true [long_line; L "      y = 2"] = Raise m.
Proof. split; [reflexivity|]. eexists. vm_compute. reflexivity. Qed.
Print Assumptions C65_column_72_refuted.
(* a continuation line marked with an exclamation mark is dropped *)
Theorem C65_exclamation_refuted : scan_fixed_line (L "     ! b)") false false = Ok (Some 5, false, false, None) /\
  rf_text true [L "      call foo(a,"; L "     ! b)"] = Ok [L "      call foo(a,"; L "     ! b)"].
Proof. split; vm_compute; reflexivity. Qed.
Print Assumptions C65_exclamation_refuted.
