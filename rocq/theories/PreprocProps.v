(* PreprocProps.v: theorems for C13, C14, C15, C45, C46, C47. *)
From Verif Require Import PreprocModel PreprocSpec PreprocProofs.
Open Scope list_scope.

(* ---- C13 ---- *)
(* Exactly which lines are processed, for every properly nested text: [code_prog]
   (PreprocSpec.v) says that a chain processes its #if branch when that condition
   holds, and otherwise every alternative whose own condition holds. *)
Theorem C13_what_is_processed :
  forall parse p d, wf p ->
    read_file parse d (lines_of p) = (x <- code_prog parse true d p ;; Ok (fst x)).
Proof.
  intros parse p d H. unfold read_file. rewrite (proj1 (code_sim parse) p H).
  change (in_true_region []) with true. destruct (code_prog parse true d p) as [[o d']|e]; reflexivity.
Qed.
Print Assumptions C13_what_is_processed.

(* #ifdef NAME and #ifndef NAME open a region that is processed exactly when NAME
   is, or is not, defined *)
Theorem C13_ifdef_ifndef :
  forall parse st d n, ident n = true ->
    process_line parse st d (L "#ifdef " ++ n) =
      Ok (true, (match lookup d n with Some _ => true | None => false end,
                 match lookup d n with Some _ => true | None => false end) :: st, d) /\
    process_line parse st d (L "#ifndef " ++ n) =
      Ok (true, (match lookup d n with Some _ => false | None => true end,
                 match lookup d n with Some _ => false | None => true end) :: st, d).
Proof.
  intros parse st d n H. unfold process_line.
  change (is_preproc_line (L "#ifdef " ++ n)) with true. change (is_preproc_line (L "#ifndef " ++ n)) with true.
  cbv iota zeta.
  change (L "#ifdef " ++ n) with ("#"%char :: L "ifdef " ++ n) at 1.
  change (L "#ifndef " ++ n) with ("#"%char :: L "ifndef " ++ n) at 1.
  rewrite !strip_directive by exact H.
  change ("#"%char :: L "ifdef " ++ n) with (L "#ifdef " ++ n).
  change ("#"%char :: L "ifndef " ++ n) with (L "#ifndef " ++ n).
  rewrite classify_ifdef, classify_ifndef by exact H. unfold enter_region, is_def.
  destruct (lookup d n); split; reflexivity.
Qed.
Print Assumptions C13_ifdef_ifndef.
Example C13_ifdef_example : ident (L "DM_PARALLEL") = true. Proof. reflexivity. Qed.

(* When every conditional has at most one alternative (#if..#endif,
   #if..#else..#endif, #if..#elif..#endif, nested to any depth), the result is
   that of a real preprocessor: the first branch that holds, and only it. *)
Theorem C13_one_branch_partial :
  forall parse p d o, wf p -> one_alt p ->
    read_file parse d (lines_of p) = Ok o ->
    exists d', ref_prog parse true d p = Ok (o, d').
Proof.
  intros parse p d o H1 H2 H. rewrite (C13_what_is_processed parse p d H1) in H.
  apply bind_ok in H. destruct H as ([o' d'] & H & E). injection E as <-.
  exists d'. now apply (proj1 (one_alt_same parse)).
Qed.
Print Assumptions C13_one_branch_partial.

(* When the #if condition holds, nothing of any alternative is processed, however
   many there are. *)
Theorem C13_if_branch_excludes_alternatives :
  forall parse i b c d o, wf (PCond i b c PNil) -> cond_value parse d i = Ok true ->
    read_file parse d (lines_of (PCond i b c PNil)) = Ok o ->
    exists ob oc, o = [] :: ob ++ oc /\
      read_file parse d (lines_of b) = Ok ob /\ Forall no_text oc.
Proof.
  intros parse i b c d o H Hv HR. rewrite (C13_what_is_processed parse _ d H), cp_cond, Hv in HR.
  cbn [bind andb] in HR.
  apply bind_ok in HR. destruct HR as ([o' d'] & HR & E). cbn [fst] in E. injection E as ->.
  apply bind_ok in HR. destruct HR as ([ob db] & Hb & HR).
  apply bind_ok in HR. destruct HR as ([oc dc] & Hc & HR). cbn [fst snd bind] in *.
  destruct (taken_no_text parse _ _ _ _ _ Hc) as [-> F].
  injection HR as <- <-. exists ob, oc. rewrite app_nil_r. split; [reflexivity|]. split; [|exact F].
  destruct H as (_ & Hwb & _). rewrite (C13_what_is_processed parse b d Hwb), Hb. reflexivity.
Qed.
Print Assumptions C13_if_branch_excludes_alternatives.

Definition p_num : str -> option (list expr) :=
  fun s => if str_eqb s (L "0") then Some [ENum 0] else if str_eqb s (L "1") then Some [ENum 1] else None.
Definition two_taken : prog :=
  PCond (L "#if 0") (PLine (L "aa") PNil)
    (CElif (L "#elif 1") (PLine (L "bb") PNil) (CElse (L "#else") (PLine (L "cc") PNil) (L "#endif"))) PNil.
Definition good_text : prog :=
  PCond (L "#if 0") (PLine (L "aa") PNil)
    (CElif (L "#elif 1") (PCond (L "# ifdef X") (PLine (L "bb") PNil) (CElse (L "# else") (PLine (L "#define Y 2") PNil) (L "# endif")) PNil) (CEnd (L "#endif")))
    (PLine (L "dd") PNil).
Example C13_example : wf good_text /\ one_alt good_text /\
  read_file p_num [(L "X", VNone)] (lines_of good_text) =
    Ok [[]; []; []; []; L "bb"; []; []; []; []; L "dd"].
Proof. split; [|split]; vm_compute; repeat split. Qed.
Example C13_example_if_true : wf two_taken /\
  cond_value (fun _ => Some [ENum 1]) [] (L "#if 0") = Ok true.
Proof. split; vm_compute; repeat split. Qed.

(* Refuted: after a taken #elif, #else is processed too. *)
Theorem C13_two_branches_refuted :
  exists parse p d o, wf p /\ read_file parse d (lines_of p) = Ok o /\
    p = two_taken /\ In (L "bb") o /\ In (L "cc") o /\
    exists d' o', ref_prog parse true d p = Ok (o', d') /\ In (L "bb") o' /\ ~ In (L "cc") o'.
Proof.
  exists p_num, two_taken, [], [[]; []; []; L "bb"; []; L "cc"; []].
  split; [vm_compute; repeat split|]. split; [vm_compute; reflexivity|]. split; [reflexivity|].
  split; [cbn [In]; auto|]. split; [cbn [In]; tauto|].
  eexists. eexists. split; [vm_compute; reflexivity|]. split; [cbn [In]; auto|].
  cbn [In]. intros [H|[H|[H|[H|[H|[H|[H|[]]]]]]]]; vm_compute in H; discriminate.
Qed.
Print Assumptions C13_two_branches_refuted.

(* ---- C14 ---- *)
(* A conditional leaves the region state exactly as it found it, whatever is
   inside; in a place that is not processed nothing is kept or defined. *)
Theorem C14_regions_nest :
  forall parse p st d o st' d', wf p ->
    read_lines parse st d (lines_of p) = Ok (o, st', d') ->
    st' = st /\
    (in_true_region st = false -> d' = d /\ Forall no_text o) /\
    (in_true_region st = true -> read_file parse d (lines_of p) = Ok o).
Proof.
  intros parse p st d o st' d' H HR. rewrite (proj1 (code_sim parse) p H) in HR. unfold with_stack in HR.
  destruct (code_prog parse (in_true_region st) d p) as [[o1 d1]|e] eqn:E; [|discriminate].
  injection HR as <- <- <-. split; [reflexivity|]. split; intros Ht; rewrite Ht in E.
  - now apply (proj1 (inactive_no_text parse)) in E.
  - rewrite (C13_what_is_processed parse p d H), E. reflexivity.
Qed.
Print Assumptions C14_regions_nest.

(* A line is kept exactly when all enclosing branches are active. *)
Theorem C14_line_kept_iff_all_regions_active :
  forall parse st d l, skip_line l = false -> dir_of l = None ->
    read_lines parse st d [l] = Ok ([if forallb snd st then l else []], st, d).
Proof.
  intros parse st d l Hs Hd. cbn [read_lines]. rewrite (step_plain parse st d l) by (now rewrite Hd).
  cbn [bind]. unfold plain_out, plain_defs. rewrite Hs, Hd.
  change (forallb snd st) with (in_true_region st). destruct (in_true_region st); reflexivity.
Qed.
Print Assumptions C14_line_kept_iff_all_regions_active.

(* An unmatched #endif is a syntax error. *)
Theorem C14_unmatched_endif_reported :
  forall parse p e rest d o, wf p -> dir_of e = Some DEndif ->
    read_file parse d (lines_of p) = Ok o ->
    read_file parse d (lines_of p ++ e :: rest) = Raise "ParseSyntaxError".
Proof.
  intros parse p e rest d o H He HR. unfold read_file in *.
  rewrite read_lines_app. rewrite (proj1 (code_sim parse) p H) in *. unfold with_stack in *.
  destruct (code_prog parse (in_true_region []) d p) as [[o1 d1]|x]; [|discriminate].
  cbn [bind fst snd read_lines]. unfold read_step. destruct (dir_some _ _ He) as [E1 E2].
  rewrite (preproc_not_skip _ E1). unfold process_line. rewrite E1, E2. reflexivity.
Qed.
Print Assumptions C14_unmatched_endif_reported.

Example C14_example : wf good_text /\ dir_of (L " # endif") = Some DEndif /\
  exists o, read_file p_num [] (lines_of good_text) = Ok o.
Proof. split; [|split]; vm_compute; repeat split. eexists; reflexivity. Qed.
Example C14_example_nested : in_true_region [(false, false); (true, true)] = false /\
  exists o, read_lines p_num [(false, false); (true, true)] [] (lines_of good_text) = Ok o.
Proof. split; vm_compute; repeat split. eexists; reflexivity. Qed.

(* Refuted: an unmatched #else (or #elif) is not a syntax error but an
   IndexError from the empty list. *)
Theorem C14_unmatched_else_refuted :
  exists parse, read_file parse [] [L "#else"] = Raise "IndexError" /\
                read_file parse [] [L "#elif 1"] = Raise "IndexError".
Proof. exists p_num. split; vm_compute; reflexivity. Qed.
Print Assumptions C14_unmatched_else_refuted.

(* ---- C45 ---- *)
(* Refuted: a conditional that is never closed is accepted silently, and drops
   the rest of the file. *)
Theorem C45_unterminated_refuted :
  exists parse lines o, dir_of (hd [] lines) = Some DIf /\
    Forall (fun l => dir_of l <> Some DEndif) lines /\
    In (L "end module m") lines /\
    read_file parse [] lines = Ok o /\ Forall (fun l => l = []) o.
Proof.
  exists p_num, [L "#if 0"; L "x = 1"; L "end module m"], [[]; []; []].
  split; [vm_compute; reflexivity|]. split.
  - repeat constructor; vm_compute; discriminate.
  - split; [cbn [In]; auto|]. split; [vm_compute; reflexivity|]. repeat constructor.
Qed.
Print Assumptions C45_unterminated_refuted.

(* ---- C15 ---- *)
(* Conditions over defined(X), "defined X", !defined(X), !, && and ||, of any
   size and nesting, with every binary operator parenthesised.  [parse] is
   Python's parser, assumed to read the translated text as its syntax tree. *)
Theorem C15_condition_value_partial :
  forall parse d e kw, names_ok e -> kw = L "#if " \/ kw = L "#elif " ->
    parse (py_text e) = Some [py_tree e] ->
    process_if_line parse (kw ++ c_text e) d = Ok (c_value d e, true).
Proof. exact if_line_value. Qed.
Print Assumptions C15_condition_value_partial.

Example C15_example :
  let e := CAnd (CDefP (L "DM_PARALLEL")) (CNot (COr (CDefS (L "STUBMPI")) (CNotDef (L "X")))) in
  names_ok e /\ c_value [(L "DM_PARALLEL", VNone); (L "X", VStr (L "3"))] e = true /\
  c_text e = L "(defined(DM_PARALLEL) && (! ((defined STUBMPI) || !defined(X))))" /\
  process_if_line (fun s => if str_eqb s (py_text e) then Some [py_tree e] else None)
    (L "#if (defined(DM_PARALLEL) && (! ((defined STUBMPI) || !defined(X))))")
    [(L "DM_PARALLEL", VNone); (L "X", VStr (L "3"))] = Ok (true, true).
Proof. vm_compute. repeat split. Qed.

(* a number is true exactly when it is not zero *)
Theorem C15_number_condition :
  forall parse d text z, parse (translate_line text) = Some [ENum z] ->
    exists b, parse_line parse text d = Ok (b, true) /\ (b = true <-> z <> 0%Z).
Proof.
  intros parse d text z H. exists (negb (z =? 0)%Z). split.
  - unfold parse_line. rewrite H. reflexivity.
  - destruct (Z.eqb_spec z 0); cbn; split; congruence.
Qed.
Print Assumptions C15_number_condition.

(* quoted text, with either quote and whatever is in it, is passed on as it is *)
Theorem C15_quoted_text_untouched :
  forall q body rest, (q = """"%char \/ q = "'"%char) -> ~ In q body ->
    translate_line (q :: body ++ q :: rest) = q :: body ++ q :: translate_line rest.
Proof.
  intros q body rest Q NB. unfold translate_line.
  assert (HB : forallb (fun c => negb (Ascii.eqb c q)) body = true).
  { apply forallb_forall. intros c I. apply negb_true_iff, Ascii.eqb_neq. intros ->. now apply NB. }
  change (length (q :: body ++ q :: rest)) with (S (length (body ++ q :: rest))). cbn [translate].
  assert (E : Ascii.eqb q """" || Ascii.eqb q "'" = true) by (destruct Q; subst; reflexivity). rewrite E.
  destruct (translate_quoted q Q body rest _ HB (le_n _)) as (f & Lf & ->).
  rewrite (translate_fuel f (length rest)) by lia. reflexivity.
Qed.
Print Assumptions C15_quoted_text_untouched.
Example C15_quoted_example :
  translate_line (L "'a && ""b' && !c") = L "'a && ""b' and notc" /\ ~ In "'"%char (L "a && ""b").
Proof. split; [reflexivity|]. cbn. intuition discriminate. Qed.

(* Refuted: an operator with three operands ignores the third
   (Python parses "a and b and c" as one BoolOp with three values). *)
Theorem C15_three_operands_refuted :
  exists parse d a b c,
    parse (L "defined(A) and defined(B) and defined(C)") =
      Some [EBoolOp true [py_tree (CDefP a); py_tree (CDefP b); py_tree (CDefP c)]] /\
    is_def d a = true /\ is_def d b = true /\ is_def d c = false /\
    process_if_line parse (L "#if defined(A) && defined(B) && defined(C)") d = Ok (true, true).
Proof.
  exists (fun _ => Some [EBoolOp true [py_tree (CDefP (L "A")); py_tree (CDefP (L "B")); py_tree (CDefP (L "C"))]]),
    [(L "A", VNone); (L "B", VNone)], (L "A"), (L "B"), (L "C").
  vm_compute. repeat split.
Qed.
Print Assumptions C15_three_operands_refuted.

(* Refuted: without a blank after #if the condition is not read at all; the
   branch counts as false whatever the condition is. *)
Theorem C15_no_blank_after_if_refuted :
  forall parse d n, ident n = true ->
    classify (L "#if(defined(" ++ n ++ L "))") = DIf /\
    process_if_line parse (L "#if(defined(" ++ n ++ L "))") d = Ok (false, false).
Proof. intros parse d n H. split; reflexivity. Qed.
Print Assumptions C15_no_blank_after_if_refuted.

(* ---- C46 ---- *)
Theorem C46_define_with_value_partial :
  forall parse st d n v, in_true_region st = true -> ident n = true -> v <> [] -> no_space v = true ->
    exists d', process_line parse st d (L "#define " ++ n ++ " "%char :: v) = Ok (true, st, d') /\
      lookup d' n = Some (VStr v) /\ forall m, m <> n -> lookup d' m = lookup d m.
Proof.
  intros parse st d n v Ht Hi Hv Hs. exists (dset d n (VStr v)).
  split; [now apply process_define|]. split.
  - rewrite lookup_dset, str_eqb_refl. reflexivity.
  - intros m Hm. rewrite lookup_dset. assert (E : str_eqb n m = false) by (apply str_eqb_neq; congruence).
    now rewrite E.
Qed.
Print Assumptions C46_define_with_value_partial.

Theorem C46_undef :
  forall parse st d n, in_true_region st = true -> ident n = true ->
    exists d', process_line parse st d (L "#undef " ++ n) = Ok (true, st, d') /\
      lookup d' n = None /\ forall m, m <> n -> lookup d' m = lookup d m.
Proof.
  intros parse st d n Ht Hi. exists (ddel d n). split; [now apply process_undef|]. split.
  - rewrite lookup_ddel, str_eqb_refl. reflexivity.
  - intros m Hm. rewrite lookup_ddel. assert (E : str_eqb n m = false) by (apply str_eqb_neq; congruence).
    now rewrite E.
Qed.
Print Assumptions C46_undef.

(* neither has any effect where the text is not processed *)
Theorem C46_inactive_define_ignored :
  forall parse st d l, in_true_region st = false -> is_plain (dir_of l) ->
    exists o, read_lines parse st d [l] = Ok ([o], st, d).
Proof.
  intros parse st d l Ht Hp. cbn [read_lines]. rewrite (step_plain parse st d l Hp), Ht. eexists; reflexivity.
Qed.
Print Assumptions C46_inactive_define_ignored.

Example C46_example : ident (L "FOO_1") = true /\ no_space (L "3") = true /\ in_true_region [(true, true)] = true.
Proof. vm_compute. auto. Qed.

(* Refuted: "#define NAME" without a value defines nothing. *)
Theorem C46_define_without_value_refuted :
  exists parse d l, l = L "#define FOO" /\
    process_line parse [] d l = Ok (true, [], d) /\ is_def d (L "FOO") = false /\
    read_file parse d [l; L "#ifdef FOO"; L "x"; L "#endif"] = Ok [[]; []; []; []].
Proof. exists p_num, [], (L "#define FOO"). vm_compute. repeat split. Qed.
Print Assumptions C46_define_without_value_refuted.

(* ---- C47 ---- *)
(* Ordering comparisons between a symbol with an integer value and a literal *)
Definition order_holds (o : cmpop) (a b : Z) : option bool :=
  match o with
  | OGt => Some (Z.gtb a b) | OGe => Some (Z.geb a b)
  | OLt => Some (Z.ltb a b) | OLe => Some (Z.leb a b)
  | _ => None
  end.
Theorem C47_ordering_partial :
  forall parse d text n s o k z b,
    parse (translate_line text) = Some [ECompare (EName n) [(o, ENum z)]] ->
    lookup d n = Some (VStr s) -> py_int s = Some k -> order_holds o k z = Some b ->
    parse_line parse text d = Ok (b, true).
Proof.
  intros parse d text n s o k z b Hp Hl Hk Ho. unfold parse_line. rewrite Hp.
  unfold expr_value. cbn [depth fold_right snd Nat.max item_value]. rewrite Hl. cbn [bind].
  unfold order_holds in Ho.
  destruct o; try discriminate; injection Ho as <-; cbn [compare1 to_int bind]; rewrite Hk; cbn [bind andb preproc_bool];
    rewrite ?Z.gtb_ltb, ?Z.geb_leb; reflexivity.
Qed.
Print Assumptions C47_ordering_partial.
Example C47_example : py_int (L "3") = Some 3%Z /\ order_holds OGe 3 2 = Some true /\
  parse_line (fun _ => Some [ECompare (EName (L "FOO")) [(OGe, ENum 2)]]) (L "FOO >= 2") [(L "FOO", VStr (L "3"))] = Ok (true, true).
Proof. vm_compute. repeat split. Qed.

(* a symbol alone: an integer value is true when it is not zero, any other text is
   true *)
Theorem C47_symbol_value :
  forall parse d text n s, parse (translate_line text) = Some [EName n] -> lookup d n = Some (VStr s) ->
    exists b, parse_line parse text d = Ok (b, true) /\
      (b = false <-> py_int s = Some 0%Z).
Proof.
  intros parse d text n s Hp Hl. unfold parse_line. rewrite Hp. unfold expr_value. cbn [depth item_value].
  rewrite Hl. cbn [bind preproc_bool to_int]. destruct (py_int s) as [z|] eqn:E; cbn [bind].
  - exists (negb (z =? 0)%Z). split; [reflexivity|]. destruct (Z.eqb_spec z 0); cbn; split; congruence.
  - exists (negb (str_eqb s (L "0"))). split; [reflexivity|]. destruct (str_eqb s (L "0")) eqn:X.
    + apply str_eqb_eq in X as ->. discriminate.
    + cbn. split; congruence.
Qed.
Print Assumptions C47_symbol_value.
(* == and != between two symbols compare their texts (the name itself when it is
   not defined) *)
Definition text_of (d : defs) (n : str) : option str :=
  match lookup d n with Some (VStr s) => Some s | None => Some n | Some _ => None end.
Theorem C47_symbols_compared_as_text :
  forall parse d text n1 n2 s1 s2 o, (o = OEq \/ o = ONe) ->
    parse (translate_line text) = Some [ECompare (EName n1) [(o, EName n2)]] ->
    text_of d n1 = Some s1 -> text_of d n2 = Some s2 ->
    exists b, parse_line parse text d = Ok (b, true) /\
      (b = true <-> (o = OEq /\ s1 = s2) \/ (o = ONe /\ s1 <> s2)).
Proof.
  intros parse d text n1 n2 s1 s2 o Ho Hp H1 H2. unfold parse_line. rewrite Hp. unfold expr_value.
  cbn [depth fold_right snd Nat.max item_value].
  assert (E1 : match lookup d n1 with Some v => Ok v | None => Ok (VStr n1) end = Ok (VStr s1)).
  { unfold text_of in H1. destruct (lookup d n1) as [[]|]; congruence. }
  assert (E2 : match lookup d n2 with Some v => Ok v | None => Ok (VStr n2) end = Ok (VStr s2)).
  { unfold text_of in H2. destruct (lookup d n2) as [[]|]; congruence. }
  rewrite E1, E2. cbn [bind].
  destruct Ho; subst o; cbn [compare1 bind andb py_eqb preproc_bool]; eexists; (split; [reflexivity|]);
    destruct (str_eqb s1 s2) eqn:X; cbn;
    (apply str_eqb_eq in X || apply str_eqb_neq in X); split; intros; try intuition congruence.
Qed.
Print Assumptions C47_symbols_compared_as_text.
(* a symbol whose value is text differs from every number *)
Theorem C47_symbol_against_number :
  forall parse d text n s z o, (o = OEq \/ o = ONe) ->
    parse (translate_line text) = Some [ECompare (EName n) [(o, ENum z)]] ->
    lookup d n = Some (VStr s) ->
    parse_line parse text d = Ok (match o with ONe => true | _ => false end, true).
Proof.
  intros parse d text n s z o Ho Hp Hl. unfold parse_line. rewrite Hp. unfold expr_value.
  cbn [depth fold_right snd Nat.max item_value]. rewrite Hl. destruct Ho; subst o; reflexivity.
Qed.
Print Assumptions C47_symbol_against_number.
Example C47_text_example :
  text_of [(L "A", VStr (L "x"))] (L "A") = Some (L "x") /\ text_of [] (L "B") = Some (L "B") /\
  parse_line (fun _ => Some [ECompare (EName (L "A")) [(ONe, EName (L "B"))]]) (L "A != B") [(L "A", VStr (L "x"))]
    = Ok (true, true).
Proof. vm_compute. repeat split. Qed.

(* Refuted: -DFOO=1 (or #define FOO 1) stores the text "1", which is never equal
   to the number 1; an undefined symbol counts as true; a symbol defined without
   a value makes the evaluation fail with a TypeError. *)
Theorem C47_equality_refuted :
  exists parse d, lookup d (L "FOO") = Some (VStr (L "1")) /\
    parse (L "FOO == 1") = Some [ECompare (EName (L "FOO")) [(OEq, ENum 1)]] /\
    process_if_line parse (L "#if FOO == 1") d = Ok (false, true).
Proof.
  exists (fun _ => Some [ECompare (EName (L "FOO")) [(OEq, ENum 1)]]), [(L "FOO", VStr (L "1"))].
  vm_compute. repeat split.
Qed.
Print Assumptions C47_equality_refuted.
Theorem C47_undefined_symbol_refuted :
  exists parse, parse (L "FOO") = Some [EName (L "FOO")] /\
    process_if_line parse (L "#if FOO") [] = Ok (true, true).
Proof. exists (fun _ => Some [EName (L "FOO")]). vm_compute. auto. Qed.
Print Assumptions C47_undefined_symbol_refuted.
Theorem C47_symbol_without_value_refuted :
  exists parse, parse (L "FOO") = Some [EName (L "FOO")] /\
    process_if_line parse (L "#if FOO") [(L "FOO", VNone)] = Raise "TypeError".
Proof. exists (fun _ => Some [EName (L "FOO")]). vm_compute. auto. Qed.
Print Assumptions C47_symbol_without_value_refuted.
