(* PassProps.v: C82-C86, what the caps of a static build pass to scheme routines. *)
From Verif Require Import PyStr UnitModel PassModel PassSpec PassProofs.
From Coq Require Import Lia.
Open Scope nat_scope.
Open Scope list_scope.

(* ===== C82: wrapped argument lists ===== *)
(* the text holds the arguments in order, separated by commas and continuations; a line is
   broken when and only when it has more than 70 characters and arguments are left *)
Theorem C82_wrapped (args : list str) :
  args <> [] -> List.last args [] <> [] -> (forall p, List.last args [] <> p ++ L ",") ->
  exists chunks : list (list str),
    List.concat chunks = args /\ Forall (fun c => c <> []) chunks /\ wrapped args = laid_out chunks /\
    (~ In (List.last args []) (removelast args) -> filled chunks).
Proof. intros N P1 P2. apply wrapped_chunks; [exact N|]. now split. Qed.
Print Assumptions C82_wrapped.
Example C82_wrapped_ex :
  wrapped [L "kind_phys"; L "im"] = L "kind_phys,im" /\
  wrapped [List.repeat "a"%char 40; List.repeat "b"%char 40; L "im"] =
    List.repeat "a"%char 40 ++ L "," ++ List.repeat "b"%char 40 ++ L ", &" ++ [nl] ++ List.repeat " "%char 18 ++ L "im".
Proof. split; vm_compute; reflexivity. Qed.

(* the list with keywords: the same layout for "name=name"; if more variables follow, the
   last comma stays *)
Theorem C82_wrapped_explicit (args : list str) (more : bool) :
  args <> [] -> List.last args [] <> [] -> (forall p, List.last args [] <> p ++ L ",") ->
  exists chunks : list (list str),
    List.concat chunks = map (fun a => a ++ L "=" ++ a) args /\ Forall (fun c => c <> []) chunks /\
    wrapped_explicit args more = laid_out chunks ++ (if more then L "," else []) /\
    (~ In (List.last args []) (removelast args) -> filled chunks).
Proof.
  intros N P1 P2. unfold wrapped_explicit. cbv zeta. rewrite wrap_explicit_map, <- (last_map_kw args N).
  assert (N' : map keyword_arg args <> []) by (destruct args; [congruence|discriminate]).
  assert (P : proper (List.last (map keyword_arg args) [])).
  { rewrite (last_map_kw args N). unfold keyword_arg. split; [destruct (List.last args []); discriminate|].
    intros p E. rewrite app_assoc in E. apply app_comma in E as (r & R); [|exact P1]. now apply (P2 r). }
  assert (I : ~ In (List.last args []) (removelast args) -> ~ In (List.last (map keyword_arg args) []) (removelast (map keyword_arg args))).
  { intros H. rewrite (last_map_kw args N). intros I. apply H. clear - I N. destruct (exists_last N) as (l & x & ->).
    rewrite map_app in I. cbn [map] in I. rewrite removelast_last in *. rewrite last_last in *.
    apply in_map_iff in I as (y & E & Y). apply keyword_inj in E. now subst. }
  change (fun a => a ++ L "=" ++ a) with keyword_arg.
  destruct more.
  - destruct (wrap_chunks _ (map keyword_arg args) N' eq_refl 0) as (ch & C & F & NC & W & FL).
    exists ch. split; [exact C|]. split; [exact F|]. split; [exact W|]. intros H. apply filled_from_0, FL; [now apply I|lia].
  - destruct (wrapped_chunks (map keyword_arg args) N' P) as (ch & C & F & W & FL).
    exists ch. rewrite app_nil_r. split; [exact C|]. split; [exact F|]. split; [exact W|]. intros H. now apply FL, I.
Qed.
Print Assumptions C82_wrapped_explicit.
Example C82_wrapped_explicit_ex :
  wrapped_explicit [L "im"; L "levs"] false = L "im=im,levs=levs" /\ wrapped_explicit [L "im"; L "levs"] true = L "im=im,levs=levs,".
Proof. split; vm_compute; reflexivity. Qed.

(* Fortran names have at most 63 characters: then no piece of a line is longer than 154
   characters (the aim stated in the code is 260) *)
Theorem C82_line_length (args : list str) :
  args <> [] -> List.last args [] <> [] -> (forall p, List.last args [] <> p ++ L ",") ->
  ~ In (List.last args []) (removelast args) -> Forall (fun a => length a <= 63) args ->
  forall before piece after, wrapped args = before ++ piece ++ after -> ~ In nl piece -> length piece <= 154.
Proof.
  intros N P1 P2 ND F b s a E NI. destruct (C82_wrapped args N P1 P2) as (ch & C & G & W & FL).
  specialize (FL ND). rewrite W in E.
  assert (R : b ++ s ++ a = join [nl] (lines_of true ch)).
  { rewrite <- (laid_out_lines ch true). cbn [app]. now symmetry. }
  pose proof (lines_of_bound 63 ch G ltac:(now rewrite C) FL true) as LB.
  exact (lines_bound nl 154 _ LB b s a R NI).
Qed.
Print Assumptions C82_line_length.
Example C82_line_length_ex :
  let args := [List.repeat "a"%char 60; List.repeat "b"%char 63; L "im"] in
  args <> [] /\ List.last args [] <> [] /\ ~ In (List.last args []) (removelast args) /\ Forall (fun a => length a <= 63) args /\
  length (wrapped args) = 148.
Proof.
  cbv zeta. repeat split; try discriminate; try (repeat constructor; cbn; lia).
  intros [H|[H|[]]]; discriminate.
Qed.
(* if the last argument also occurs earlier, the rule does not hold: the test for the last
   argument compares names, and a list may grow to any length on one line *)
Theorem C82_finding_repeated_argument n :
  wrapped (List.repeat (L "im") (S n)) = join (L ",") (List.repeat (L "im") (S n)).
Proof.
  assert (A : forall k len, List.last (List.repeat (L "im") (S k)) [] = L "im" /\
     wrap_go (L "im") len (List.repeat (L "im") (S k)) = join (L ",") (List.repeat (L "im") (S k)) ++ L ",").
  { induction k as [|k IH]; intros len.
    - split; [reflexivity|]. cbn [List.repeat wrap_go]. rewrite str_eqb_refl, andb_false_r. reflexivity.
    - destruct (IH (len + length (L "im") + 1)) as [E1 E2]. split; [exact E1|].
      change (List.repeat (L "im") (S (S k))) with (L "im" :: List.repeat (L "im") (S k)).
      cbn [wrap_go]. rewrite str_eqb_refl, andb_false_r, E2.
      change (join (L ",") (L "im" :: List.repeat (L "im") (S k))) with (L "im" ++ L "," ++ join (L ",") (List.repeat (L "im") (S k))).
      now rewrite <- !app_assoc. }
  unfold wrapped. destruct (A n 0) as [-> ->].
  assert (X : exists p, join (L ",") (List.repeat (L "im") (S n)) = p ++ L "im").
  { rewrite <- (rev_involutive (List.repeat (L "im") (S n))). cbn [List.repeat rev]. rewrite rev_app_distr. cbn [rev app].
    assert (R : rev (List.repeat (L "im") n) = List.repeat (L "im") n).
    { induction n as [|m IH]; [reflexivity|]. cbn [List.repeat rev]. rewrite IH. clear. induction m as [|m IH]; [reflexivity|]. cbn [List.repeat app]. now rewrite IH at 1. }
    rewrite R. replace (L "im" :: rev (List.repeat (L "im") n)) with (List.repeat (L "im") n ++ [L "im"]); [apply join_last|].
    rewrite R. clear. induction n as [|m IH]; [reflexivity|]. cbn [List.repeat app]. now rewrite IH. }
  destruct X as (p & X). apply rstrip_comma_one.
  - intros q E. rewrite X in E. apply app_comma in E as (r & E); [|discriminate].
    apply (f_equal (@rev ascii)) in E. rewrite rev_app_distr in E. cbn in E. discriminate.
  - rewrite X. intros E. apply app_eq_nil in E as [_ E]. discriminate.
Qed.
Print Assumptions C82_finding_repeated_argument.

(* ===== C83: the unit conversion around a call ===== *)
(* a variable that is always there: the scheme reads the host's value in its own units, and
   what it leaves comes back in the host's units; an intent(in) variable is not changed *)
Theorem C83_unconditional (V : Type) (conv_in conv_out : V -> V) active differ arr it sch (host : V) tmp ptr s st' :
  pass V conv_in conv_out false active differ arr it sch (mkP (Val host) tmp ptr) = (s, st') ->
  (it <> IOut -> s = Present (Val (if differ then conv_in host else host))) /\
  p_host st' = Val (match it with
                    | IIn => host
                    | _ => if differ then conv_out (sch s) else sch s
                    end) /\
  (differ = true -> arr = true -> p_tmp st' = Unalloc).
Proof.
  unfold pass. destruct differ, arr, it; cbn; intros E; injection E as <- <-; cbn; repeat split; congruence.
Qed.
Print Assumptions C83_unconditional.
Example C83_unconditional_ex :
  pass nat (fun v => v + 273) (fun v => v - 273) false true true true IInout (fun s => match s with Present (Val v) => v + 10 | _ => 0 end)
    (mkP (Val 20) Unalloc Null) = (Present (Val 293), mkP (Val 30) Unalloc Null).
Proof. reflexivity. Qed.

(* a variable that is allocated under a condition: the same, by way of a pointer, unless it
   is intent(out) with other units; if the condition does not hold, the scheme gets an
   absent optional argument and nothing happens *)
Theorem C83_conditional_partial (V : Type) (conv_in conv_out : V -> V) differ arr it sch (host : V) tmp ptr s st' :
  pass V conv_in conv_out true true differ arr it sch (mkP (Val host) tmp ptr) = (s, st') ->
  it <> IOut \/ differ = false ->
  (it <> IOut -> s = Present (Val (if differ then conv_in host else host))) /\
  p_host st' = Val (match it with
                    | IIn => host
                    | _ => if differ then conv_out (sch s) else sch s
                    end) /\
  (it = IInout \/ differ = false -> p_ptr st' = Null).
Proof.
  unfold pass. intros E H. destruct differ, arr, it; cbn in E; injection E as <- <-; cbn; repeat split; try congruence; destruct H; try congruence; intros [X|X]; congruence.
Qed.
Print Assumptions C83_conditional_partial.
Theorem C83_inactive (V : Type) (conv_in conv_out : V -> V) differ arr it sch st :
  p_ptr st = Null -> pass V conv_in conv_out true false differ arr it sch st = (Absent, st).
Proof. intros H. destruct st as [h t p]. cbn in H. subst p. unfold pass, call_scheme. cbn. now destruct (intent_eqb it IIn). Qed.
Print Assumptions C83_inactive.
Example C83_conditional_ex :
  pass nat S pred true true true true IInout (fun s => match s with Present (Val v) => v * 2 | _ => 0 end) (mkP (Val 4) Unalloc Null)
    = (Present (Val 5), mkP (Val 9) Unalloc Null) /\
  pass nat S pred true false true true IInout (fun _ => 7) (mkP Unalloc Unalloc Null) = (Absent, mkP Unalloc Unalloc Null).
Proof. split; reflexivity. Qed.

(* an intent(out) variable with a condition and other units: no pointer is set before the
   call, the scheme finds its argument absent, and afterwards the host's array is
   overwritten with the conversion of memory nobody has written *)
Theorem C83_conditional_out_refuted (V : Type) (conv_in conv_out : V -> V) sch (host : V) tmp :
  pass V conv_in conv_out true true true true IOut sch (mkP (Val host) tmp Null) = (Absent, mkP Undef Unalloc Null).
Proof. reflexivity. Qed.
Print Assumptions C83_conditional_out_refuted.
(* an intent(in) array with a condition and other units leaves the pointer at memory that
   has been freed; the next scheme with intent(out) gets that pointer *)
Theorem C83_dangling_pointer_refuted (V : Type) (conv_in conv_out : V -> V) sch1 sch2 (host : V) tmp :
  let '(s1, st1) := pass V conv_in conv_out true true true true IIn sch1 (mkP (Val host) tmp Null) in
  let '(s2, st2) := pass V conv_in conv_out true true true true IOut sch2 st1 in
  s1 = Present (Val (conv_in host)) /\ p_ptr st1 = Dangling /\ s2 = Garbage.
Proof. cbn. auto. Qed.
Print Assumptions C83_dangling_pointer_refuted.

(* ===== C84: conversions of array sections ===== *)
(* [fmt t v k] is the Fortran expression for the value v; of an array section base(d) the
   expression should be the one for base ++ d.  It is for templates that end in the
   variable. *)
Theorem C84_section_partial f t : In (f, t) unit_functions -> (exists p, t = p ++ L "{var}") ->
  forall base kind d, rhs_in t base kind d = fmt t (base ++ d) kind.
Proof.
  intros I (p & P) base kind d. unfold rhs_in, unit_functions in *. cbn [map] in I.
  repeat (destruct I as [I|I]; [injection I as <- <-; cbn; rewrite ?app_nil_r, <- ?app_assoc; try reflexivity;
    exfalso; apply (f_equal (@rev ascii)) in P; rewrite rev_app_distr in P; cbn in P; discriminate|]).
  destruct I.
Qed.
Print Assumptions C84_section_partial.
Example C84_section_ex :
  rhs_in (L "1.0E-2{kind}*{var}") (L "Sfcprop%ps") (L "_kind_phys") (L "(1:im)") = L "1.0E-2_kind_phys*Sfcprop%ps(1:im)".
Proof. vm_compute; reflexivity. Qed.
(* for the others (among them Kelvin and Celsius) the section selector stands after the
   number and its kind: no Fortran expression, and not the conversion of the section *)
Theorem C84_section_refuted f t : In (f, t) unit_functions -> (forall p, t <> p ++ L "{var}") ->
  exists op number, forall base kind d,
    rhs_in t base kind d = base ++ op :: number ++ kind ++ d /\
    (d <> [] -> (forall x r, d = x :: r -> x <> op) -> rhs_in t base kind d <> fmt t (base ++ d) kind).
Proof.
  intros I N.
  assert (X : exists op number, t = L "{var}" ++ op :: number ++ L "{kind}" /\ ~ In "{"%char (op :: number)).
  { unfold unit_functions in I. cbn [map] in I.
    repeat (destruct I as [I|I];
      [injection I as <- <-;
       first [ exfalso; match type of N with forall p, ?t <> _ => apply (N (firstn (length t - 5) t)); vm_compute; reflexivity end
             | match goal with |- context[?t = _] =>
                 exists (nth 5 t "x"%char), (firstn (length t - 12) (skipn 6 t)); split; [vm_compute; reflexivity|] end;
               cbn; intros Q; repeat (destruct Q as [Q|Q]; [discriminate|]); exact Q ] |]).
    destruct I. }
  destruct X as (op & num & -> & NB). exists op, num. intros base kind d.
  assert (G : forall u v k, ~ In "{"%char u -> fmt (u ++ L "{kind}") v k = u ++ k).
  { clear. induction u as [|c u IH]; intros v k H.
    - cbn. now rewrite app_nil_r.
    - cbn [app]. assert (c <> "{"%char) by (intros ->; apply H; now left).
      assert (E : forall r, fmt (c :: r) v k = c :: fmt r v k).
      { intros r. destruct c as [[] [] [] [] [] [] [] []]; try reflexivity. congruence. }
      rewrite E, IH; [reflexivity|]. intros Q. apply H. now right. }
  assert (G2 : forall v k, fmt (L "{var}" ++ op :: num ++ L "{kind}") v k = v ++ op :: num ++ k).
  { intros v k. change (fmt (L "{var}" ++ op :: num ++ L "{kind}") v k) with (v ++ fmt ((op :: num) ++ L "{kind}") v k).
    rewrite G by exact NB. reflexivity. }
  unfold rhs_in. rewrite !G2. split; [now rewrite <- !app_assoc; cbn [app]; rewrite <- !app_assoc|].
  intros Hd Hop E. rewrite <- !app_assoc in E. apply app_inv_head in E.
  destruct d as [|x r]; [congruence|]. cbn [app] in E. injection E as E _. apply (Hop x r eq_refl). now symmetry.
Qed.
Print Assumptions C84_section_refuted.
Example C84_section_refuted_ex :
  rhs_in (L "{var}-273.15{kind}") (L "Statein%tgrs") (L "_kind_phys") (L "(1:im,1:levs)") = L "Statein%tgrs-273.15_kind_phys(1:im,1:levs)".
Proof. vm_compute; reflexivity. Qed.

(* ===== C85: blocked data ===== *)
(* the schemes of a group function see the blocks as one contiguous array in their units,
   and their output goes back to the blocks, if the first of them does not only read the
   variable, and those that only read it want the host's units *)
Theorem C85_blocked_partial (A : Type) (undef : A) (conv_in conv_out : A -> A) hdim c1 cs blocks :
  hdim = length (List.concat blocks) ->
  (forall c l, In c (c1 :: cs) -> length (b_scheme c l) = length l) ->
  b_intent c1 <> IIn ->
  (forall c, In c cs -> b_intent c = IIn -> b_differ c = false) ->
  blocked_group A undef conv_in conv_out hdim (c1 :: cs) blocks =
  fold_left (fun bl c => ideal_call conv_in conv_out c bl) (c1 :: cs) blocks.
Proof.
  intros H S N D. unfold blocked_group.
  replace (negb (intent_eqb (b_intent c1) IIn)) with true by (destruct (b_intent c1); [congruence|reflexivity|reflexivity]).
  assert (D' : forall c, In c (c1 :: cs) -> b_intent c <> IIn \/ b_differ c = false).
  { intros c [<-|I]; [now left|]. destruct (b_intent c) eqn:E; [right; now apply D|left; discriminate|left; discriminate]. }
  clear D N. revert blocks H. induction (c1 :: cs) as [|c l IH]; intros blocks H; [reflexivity|].
  cbn [fold_left]. rewrite blocked_call_back; [|exact H|apply D'; now left].
  apply IH.
  - intros x y I. apply S. now right.
  - intros x I. apply D'. now right.
  - rewrite concat_len, ideal_sizes by (intros; apply S; now left). now rewrite <- concat_len.
Qed.
Print Assumptions C85_blocked_partial.
(* if they all only read it, the blocks are not touched *)
Theorem C85_blocked_readers (A : Type) (undef : A) (conv_in conv_out : A -> A) hdim cs blocks :
  Forall (fun c => b_intent c = IIn) cs -> blocked_group A undef conv_in conv_out hdim cs blocks = blocks.
Proof.
  intros F. unfold blocked_group. destruct cs as [|c1 cs]; [reflexivity|].
  assert (E : b_intent c1 = IIn) by now inversion F. rewrite E. cbn [intent_eqb negb]. clear.
  generalize (c1 :: cs). intros l. revert blocks. induction l as [|c l IH]; intros blocks; [reflexivity|]. cbn [fold_left]. apply IH.
Qed.
Print Assumptions C85_blocked_readers.
Example C85_blocked_ex :
  blocked_group nat 0 (fun x => x) (fun x => x) 5
    [mkB IInout false (map (fun v => v + 1)); mkB IIn false (fun l => l); mkB IOut false (fun l => map (fun v => v * 2) l)] [[1; 2]; [3]; [4; 5]]
  = [[4; 6]; [8]; [10; 12]].
Proof. reflexivity. Qed.

(* the statements after a call come from the first scheme that uses the variable: if that
   one only reads it, the output of every later scheme is thrown away *)
Theorem C85_lost_output_refuted (A : Type) (undef : A) (conv_in conv_out : A -> A) hdim c1 cs blocks :
  b_intent c1 = IIn -> blocked_group A undef conv_in conv_out hdim (c1 :: cs) blocks = blocks.
Proof.
  intros E. unfold blocked_group. rewrite E. cbn [intent_eqb negb].
  generalize (c1 :: cs). intros l. revert blocks. induction l as [|c l IH]; intros blocks; [reflexivity|]. cbn [fold_left]. apply IH.
Qed.
Print Assumptions C85_lost_output_refuted.
Example C85_lost_output_ex :
  let cs := [mkB IIn false (fun l => l); mkB IInout false (map (fun v => v + 1))] in
  blocked_group nat 0 (fun x => x) (fun x => x) 3 cs [[1; 2]; [3]] = [[1; 2]; [3]] /\
  fold_left (fun bl c => ideal_call (fun x => x) (fun x => x) c bl) cs [[1; 2]; [3]] = [[2; 3]; [4]].
Proof. split; reflexivity. Qed.
(* if the first one writes it, a later scheme that only reads it in other units leaves the
   converted values in the host's blocks *)
Theorem C85_reader_changes_units_refuted (A : Type) (undef : A) (conv_in conv_out : A -> A) hdim c1 c2 blocks :
  hdim = length (List.concat blocks) -> (forall l, length (b_scheme c1 l) = length l) ->
  b_intent c1 <> IIn -> b_intent c2 = IIn -> b_differ c2 = true ->
  blocked_group A undef conv_in conv_out hdim [c1; c2] blocks = map (map conv_in) (ideal_call conv_in conv_out c1 blocks).
Proof.
  intros H S N E D. unfold blocked_group. cbn [fold_left].
  replace (negb (intent_eqb (b_intent c1) IIn)) with true by (destruct (b_intent c1); [congruence|reflexivity|reflexivity]).
  rewrite (blocked_call_back undef conv_in conv_out hdim c1 blocks H (or_introl N)).
  set (bl := ideal_call conv_in conv_out c1 blocks).
  assert (HB : hdim = length (List.concat bl)).
  { unfold bl. rewrite concat_len, ideal_sizes by exact S. now rewrite <- concat_len. }
  unfold blocked_call. cbv zeta. rewrite E, D. cbn [act_in act_out intent_eqb negb andb].
  rewrite copy_in_concat by exact HB. rewrite copy_out_is_cut. clear.
  rewrite concat_map. rewrite <- (cut_concat (map (map conv_in) bl)) at 2. f_equal.
  rewrite map_map. apply map_ext. intros l. now rewrite map_length.
Qed.
Print Assumptions C85_reader_changes_units_refuted.
Example C85_reader_changes_units_ex :
  blocked_group nat 0 (fun v => v + 273) (fun v => v - 273) 3 [mkB IInout false (fun l => l); mkB IIn true (fun l => l)] [[1; 2]; [3]]
  = [[274; 275]; [276]].
Proof. reflexivity. Qed.

(* ===== C86: the intents the caps declare ===== *)
(* a group function's argument is intent(in) exactly when every use in the group only reads
   it, and intent(out) only when every use only writes it *)
Theorem C86_group_intent us g : well_formed us -> group_intent us = Some g ->
  (g = IIn <-> Forall reads_only us) /\ (g = IOut -> Forall writes_only us).
Proof.
  intros W E. pose proof (group_intent_inv us W) as I. rewrite E in I.
  assert (NE : us <> []) by (intros ->; discriminate).
  destruct g; cbn [intent_inv] in I; split; try tauto; try discriminate.
  - split; [discriminate|]. intros F. exfalso. destruct I as [_ I]. destruct us as [|u us]; [congruence|].
    inversion F; inversion I; subst. destruct H5 as [Q1 Q2]. destruct H1 as [Q|Q]; congruence.
  - split; [discriminate|]. intros F. exfalso. destruct I as [_ [I|I]]; [congruence|now apply I].
Qed.
Print Assumptions C86_group_intent.
Theorem C86_group_declared us : us <> [] -> exists g, group_intent us = Some g.
Proof.
  intros N. unfold group_intent.
  assert (K : forall l c, exists g, fold_left step_intent l (Some c) = Some g).
  { induction l as [|u l IH]; intros c; [exists c; reflexivity|]. cbn [fold_left].
    assert (exists d, step_intent (Some c) u = Some d) as (d & ->); [|apply IH].
    destruct c; cbn; repeat match goal with |- context[if ?b then _ else _] => destruct b end; eauto. }
  destruct us as [|u us]; [congruence|]. cbn [fold_left step_intent]. apply K.
Qed.
Print Assumptions C86_group_declared.
Example C86_group_ex :
  group_intent [mkUse false false false IIn; mkUse true false false IOut; mkUse false true false IIn] = Some IIn /\
  group_intent [mkUse false false false IOut; mkUse false true false IOut] = Some IOut /\
  group_intent [mkUse false false false IOut; mkUse false true false IIn] = Some IInout.
Proof. repeat split; reflexivity. Qed.
(* the suite function's argument: intent(in) or intent(out) exactly when every group's is *)
Theorem C86_suite_intent gs g : suite_intent gs = Some g ->
  (g = IIn <-> Forall (eq IIn) gs) /\ (g = IOut <-> Forall (eq IOut) gs).
Proof. apply suite_intent_spec. Qed.
Print Assumptions C86_suite_intent.
Example C86_suite_ex : suite_intent [IIn; IIn] = Some IIn /\ suite_intent [IOut; IOut] = Some IOut /\ suite_intent [IIn; IOut] = Some IInout.
Proof. repeat split; reflexivity. Qed.
(* the converse for intent(out) does not hold: two different arguments that are parts of one
   host variable, both intent(out), make it intent(inout) *)
Theorem C86_finding_two_outputs :
  exists us, well_formed us /\ Forall writes_only us /\ group_intent us = Some IInout.
Proof.
  exists [mkUse false false true IOut; mkUse false false true IOut]. split; [|split; [|reflexivity]].
  - repeat constructor; discriminate.
  - repeat constructor.
Qed.
Print Assumptions C86_finding_two_outputs.
(* one component that is written declares the whole derived type intent(out), although the
   other components keep their values for the host *)
Theorem C86_component_refuted :
  exists us, well_formed us /\ (forall u, In u us -> u_component u = true) /\ group_intent us = Some IOut.
Proof.
  exists [mkUse false false true IOut]. split; [|split; [|reflexivity]].
  - repeat constructor; discriminate.
  - intros u [<-|[]]. reflexivity.
Qed.
Print Assumptions C86_component_refuted.
