(* FWProps.v: C22, C66 and C67 about FortranWriter.write. *)
From Verif Require Import PyStr FWModel FWSpec FWProofs FWFold FWKeep FWLayout CheckProofs.
Open Scope nat_scope.
Open Scope list_scope.

(* ---- C22 ---- *)
Lemma all_in fuel w level cont : forall stmts ls r, fw_write_all fuel w stmts level cont = (ls, r) ->
  forall l, In l ls -> exists s ls1 r1, In s stmts /\ fw_write fuel w s level cont = (ls1, r1) /\ In l ls1.
Proof.
  induction stmts as [|s stmts IH]; intros ls r H l I; cbn [fw_write_all] in H.
  - injection H as <- _. destruct I.
  - destruct (fw_write fuel w s level cont) as [l1 [u|e]] eqn:W.
    + destruct (fw_write_all fuel w stmts level cont) as [l2 e2] eqn:W2. injection H as <- _.
      apply in_app_iff in I as [I|I]; [exists s, l1, (Ok u); cbn; auto|].
      destruct (IH _ _ eq_refl _ I) as (s' & x & y & A & B & C). exists s', x, y. cbn. auto.
    + injection H as <- _. exists s, l1, (Raise e). cbn. auto.
Qed.
(* no line is longer than one more than the maximal length (two more than the target
   length, when that is larger) *)
Theorem C22_line_length w fuel text level ls r : 1 <= fw_max w -> fw_write_text fuel w text level = (ls, r) ->
  forall l, In l ls -> length l <= Nat.max (fw_fill w + 2) (fw_max w + 1).
Proof.
  intros M H l I. destruct (all_in _ _ _ _ _ _ _ H l I) as (s & ls1 & r1 & _ & W & I1). now apply (fw_bound w M _ _ _ _ _ _ W).
Qed.
Print Assumptions C22_line_length.
Theorem C22_default_line_length fuel text level ls r : fw_write_text fuel fw_default text level = (ls, r) ->
  forall l, In l ls -> length l <= 131.
Proof. intros H l I. apply (C22_line_length fw_default fuel text level ls r); auto. cbn. lia. Qed.
Print Assumptions C22_default_line_length.
(* 131 columns do occur, one more than the maximal length *)
Theorem C22_finding_one_too_long : exists text ls, fw_write_text 300 fw_default text 0 = (ls, Ok tt) /\
  exists l, In l ls /\ length l = 131.
Proof.
  exists (List.repeat "a"%char 129 ++ L " " ++ L "bbb"). eexists. split; [vm_compute; reflexivity|].
  eexists. split; [left; reflexivity|reflexivity].
Qed.
Print Assumptions C22_finding_one_too_long.

(* write ends: the depth of the recursion is bounded by the length of the statement *)
Theorem C22_ends w stmt level cont fuel : fw_indent w * level + fw_cont w + 3 <= fw_max w -> 2 * length stmt + 1 < fuel ->
  snd (fw_write fuel w stmt level cont) <> Raise "RecursionError".
Proof.
  intros M F. apply term_main; auto. pose proof (need_le (strip stmt)). pose proof (strip_len stmt). lia.
Qed.
Print Assumptions C22_ends.

(* no character other than blanks and the marks & and ! is lost, added or moved, and an
   exception loses only what follows the lines already written *)
Theorem C22_letters fuel w stmt level cont ls r : fw_write fuel w stmt level cont = (ls, r) ->
  exists rest, letters stmt = letters (List.concat ls) ++ rest /\ (r = Ok tt -> rest = []).
Proof. apply keep_main. Qed.
Print Assumptions C22_letters.

(* a statement that has a place to break every n columns is written as lines that the
   free-form rules read back as the same statement *)
Theorem C22_folding w n level fuel s : fw_fill w < fw_max w -> fw_indent w * level + fw_cont w + n <= fw_max w ->
  statement s -> short_pieces n s -> length s < fuel ->
  exists ls k t, fw_write fuel w s level false = (ls, Ok tt) /\ folded ls (blank_str k ++ t) /\ same_code s t.
Proof.
  intros F M SS SP FU. destruct (fold_main w n level F M fuel s false s) as (ls & k & t & A & B & C & _); auto.
  - now destruct SS.
  - eauto 6.
Qed.
Print Assumptions C22_folding.

(* a comment stays a comment *)
Theorem C22_comment fuel w stmt level cont ls r t : strip stmt = "!"%char :: t -> fw_write fuel w stmt level cont = (ls, r) ->
  Forall comment_line ls.
Proof. apply comment_main. Qed.
Print Assumptions C22_comment.

(* indentation: of plain text every line starts in the column of its level, the lines after
   a continued line further in *)
Theorem C22_layout w level fuel stmt ls r : fw_indent w * level + fw_cont w + 1 <= fw_max w -> plain_text stmt ->
  fw_write fuel w stmt level false = (ls, r) -> layout (fw_indent w * level) (fw_cont w) (fw_indent w * level) ls.
Proof. intros M P H. apply (layout_main w level M) in H; auto. unfold indent_len in H. now rewrite Nat.add_0_r in H. Qed.
Print Assumptions C22_layout.
Example C22_layout_ex : plain_text (L "call foo(a, b)") /\ fw_indent fw_default * 41 + fw_cont fw_default + 1 <= fw_max fw_default.
Proof.
  split; [|vm_compute; lia]. intros c I. unfold L in I. cbn in I.
  repeat (destruct I as [<-|I]; [split; [discriminate|intros [X|X]; discriminate X]|]). destruct I.
Qed.

(* text whose lines fit is written line by line, in order, each at its indentation *)
Definition fits (w : fw) (level : nat) (s : str) : Prop := fw_indent w * level + length (strip s) <= fw_fill w.
Definition one_line (w : fw) (level : nat) (s l : str) : Prop :=
  (strip s = [] /\ l = []) \/ ((exists t, strip s = "&"%char :: t) /\ l = strip s) \/
  (strip s <> [] /\ (forall t, strip s <> "&"%char :: t) /\ l = List.repeat " "%char (fw_indent w * level) ++ strip s).
Theorem C22_short w level fuel text : Forall (fits w level) (split_on nl text) ->
  exists ls, fw_write_text (S fuel) w text level = (ls, Ok tt) /\ Forall2 (one_line w level) (split_on nl text) ls.
Proof.
  unfold fw_write_text. induction (split_on nl text) as [|s stmts IH]; intros F; [exists []; split; [reflexivity|constructor]|].
  inversion F as [|? ? F1 F2]; subst. destruct (IH F2) as (ls & E & F3).
  set (l := if negb (is_nil (strip s)) && negb (starts_amp (strip s)) then blank_str (indent_len w level false) ++ strip s else strip s).
  assert (W : fw_write (S fuel) w s level false = ([l], Ok tt)).
  { cbn [fw_write]. cbv zeta. fold l. replace (fw_fill w <? length l) with false; auto. symmetry. apply Nat.ltb_ge. unfold fits in F1.
    unfold l. destruct (_ && _); [|lia]. rewrite app_length, rep_length. unfold indent_len. lia. }
  exists (l :: ls). split.
  - change (fw_write_all (S fuel) w (s :: stmts) level false) with
      (match fw_write (S fuel) w s level false with
       | (ls, Ok _) => let '(ls2, e) := fw_write_all (S fuel) w stmts level false in (ls ++ ls2, e)
       | (ls, Raise e) => (ls, Raise e) end). rewrite W, E. reflexivity.
  - constructor; auto. unfold l, one_line, indent_len. rewrite Nat.add_0_r. destruct (strip s) as [|c t]; [left; auto|]. right.
    cbn [is_nil negb andb starts_amp]. destruct (Ascii.eqb_spec c "&") as [->|N]; cbn [negb].
    + left. split; eauto.
    + right. split; [discriminate|]. split; auto. intros t' [= X _]. contradiction.
Qed.
Print Assumptions C22_short.
Example C22_short_ex : Forall (fits fw_default 2) (split_on nl (L "a = 1" ++ nl :: L "  b = 2")) /\
  fst (fw_write_text 1 fw_default (L "a = 1" ++ nl :: L "  b = 2") 2) = [L "      a = 1"; L "      b = 2"].
Proof. split; [repeat constructor; unfold fits; vm_compute; lia|reflexivity]. Qed.

(* a text of several lines: every character is kept, in order *)
Lemma letters_join ss : letters (join [nl] ss) = List.concat (map letters ss).
Proof.
  induction ss as [|s [|s2 ss] IH]; [reflexivity|cbn; now rewrite app_nil_r|].
  change (join [nl] (s :: s2 :: ss)) with (s ++ [nl] ++ join [nl] (s2 :: ss)). rewrite !letters_app, IH. reflexivity.
Qed.
Theorem C22_text_letters fuel w text level ls : fw_write_text fuel w text level = (ls, Ok tt) ->
  letters (List.concat ls) = letters text.
Proof.
  intros H. rewrite <- (join_split nl text), letters_join. unfold fw_write_text in H. revert ls H.
  induction (split_on nl text) as [|s stmts IH]; intros ls H; cbn [fw_write_all] in H; [now injection H as <-|].
  destruct (fw_write fuel w s level false) as [l1 [u|e]] eqn:W; [|discriminate].
  destruct (fw_write_all fuel w stmts level false) as [l2 e2] eqn:W2. injection H as <- ->.
  rewrite concat_app, letters_app, (IH _ eq_refl). cbn [map List.concat]. f_equal.
  destruct (C22_letters _ _ _ _ _ _ _ W) as (rest & E & R). destruct u. rewrite E, (R eq_refl). now rewrite app_nil_r.
Qed.
Print Assumptions C22_text_letters.

(* deciding the hypotheses of C22_folding on examples *)
Definition qstep (q : option ascii) (c : ascii) : option ascii := quote_from q [c].
Fixpoint gap_ok (n k : nat) (q : option ascii) (s : str) : bool :=
  match s with
  | [] => true
  | c :: t => (k <? n) && gap_ok n (match q with None => if Ascii.eqb c " " || Ascii.eqb c "," then 0 else S k | _ => S k end) (qstep q c) t
  end.
Lemma gap_app n : forall a k q b, gap_ok n k q (a ++ b) = true -> exists k', gap_ok n k' (quote_from q a) b = true.
Proof.
  induction a as [|c a IH]; intros k q b H; cbn [app gap_ok] in H; [eauto|].
  apply andb_true_iff in H as [_ H]. destruct (IH _ _ _ H) as (k' & G). exists k'. change (c :: a) with ([c] ++ a). now rewrite quote_app.
Qed.
Lemma gap_sep n : forall b k q, gap_ok n k q b = true -> n < k + length b -> k <= n ->
  exists u v, b = u ++ v /\ k + length u <= S n /\ sep u /\ quote_from q u = None.
Proof.
  induction b as [|c b IH]; intros k q H LN K; cbn [gap_ok length] in *; [lia|].
  apply andb_true_iff in H as [H0 H]. apply Nat.ltb_lt in H0.
  assert (REST : gap_ok n (S k) (qstep q c) b = true -> exists u v, c :: b = u ++ v /\ k + length u <= S n /\ sep u /\ quote_from q u = None).
  { intros G. destruct (IH (S k) _ G) as (u & v & E & LU & (p & P) & Q); [lia|lia|]. exists (c :: u), v. split; [now rewrite E|]. cbn [length]. split; [lia|].
    split; [exists (c :: p); cbn; destruct P as [-> |[-> | ->]]; auto|]. change (c :: u) with ([c] ++ u). now rewrite quote_app. }
  destruct q as [k0|]; [auto|].
  destruct (Ascii.eqb_spec c " ") as [->|N1]; [|destruct (Ascii.eqb_spec c ",") as [->|N2]].
  - exists (L " "), b. split; auto. split; [cbn; lia|]. split; auto. exists []. auto.
  - exists (L ","), b. split; auto. split; [cbn; lia|]. split; auto. exists []. auto.
  - auto.
Qed.
Lemma gap_bound n b k q : gap_ok n k q b = true -> k <= n \/ b = [].
Proof. destruct b as [|c b]; auto. intros H. cbn [gap_ok] in H. apply andb_true_iff in H as [H _]. apply Nat.ltb_lt in H. left. lia. Qed.
Lemma short_check n s : gap_ok n 0 None s = true -> short_pieces (n + 2) s.
Proof.
  intros G a b -> CA LB. apply code_quote in CA. destruct b as [|c b]; [cbn in LB; lia|]. change (a ++ c :: b) with (a ++ [c] ++ b) in *. rewrite app_assoc in G.
  destruct (gap_app n (a ++ [c]) 0 None b G) as (k & GB). rewrite quote_app, CA in GB. cbn [length] in LB.
  destruct (gap_bound n b k _ GB) as [K|E]; [|subst b; cbn in LB; lia].
  destruct (gap_sep n b k _ GB) as (u & v & E & LU & SU & Q); [lia|auto|].
  exists (c :: u), v. split; [now rewrite E|]. split; [|split].
  - cbn [length]. split; [|lia]. destruct u; [|cbn; lia]. destruct SU as (p & P). destruct P as [P|[P|P]]; apply (f_equal (@length ascii)) in P; rewrite app_length in P; cbn in P; lia.
  - apply quote_code. change (c :: u) with ([c] ++ u). now rewrite quote_app.
  - destruct SU as (p & P). exists (c :: p). cbn. destruct P as [-> |[-> | ->]]; auto.
Qed.
Lemma no_marks_check s : existsb (fun c => Ascii.eqb c "!" || Ascii.eqb c "&") s = false -> no_marks s.
Proof.
  intros H a c b -> _. rewrite existsb_app in H. apply orb_false_iff in H as [_ H]. cbn [existsb] in H. apply orb_false_iff in H as [H _].
  apply orb_false_iff in H as [H1 H2]. apply Ascii.eqb_neq in H1, H2. auto.
Qed.
Lemma not_sep_check t c : c <> " "%char -> c <> ","%char -> c <> "/"%char -> ~ sep (t ++ [c]).
Proof.
  intros A B D (p & P). change (L "//") with (["/"%char] ++ ["/"%char]) in P. destruct P as [P|[P|P]]; [| |rewrite app_assoc in P]; apply app_inj_tail in P as [_ P]; contradiction.
Qed.
Definition ex_args : str := L "subroutine foo(long_argument1, long_argument2, long_argument3, long_argument4, long_argument5)".
Example C22_folding_ex : statement ex_args /\ short_pieces 32 ex_args /\ fw_indent fw_default * 20 + fw_cont fw_default + 32 <= fw_max fw_default /\
  length (fst (fw_write 99 fw_default ex_args 2 false)) = 2.
Proof.
  split; [|split; [|split; [vm_compute; lia|vm_compute; reflexivity]]].
  - split; [vm_compute; reflexivity|]. split; [apply quote_code; vm_compute; reflexivity|]. split; [|apply no_marks_check; vm_compute; reflexivity].
    change ex_args with (L "subroutine foo(long_argument1, long_argument2, long_argument3, long_argument4, long_argument5" ++ [")"%char]).
    apply not_sep_check; discriminate.
  - apply (short_check 30); vm_compute; reflexivity.
Qed.
Definition ex_com : str := L "! " ++ List.concat (List.repeat (L "word ") 40).
Example C22_comment_ex : exists t l1 l2 l3, strip ex_com = "!"%char :: t /\ fw_write 99 fw_default ex_com 1 false = ([l1; l2; l3], Ok tt) /\ l2 <> [].
Proof. do 4 eexists. split; [vm_compute; reflexivity|]. split; [vm_compute; reflexivity|discriminate]. Qed.
Example C22_ends_ex : fw_indent fw_default * 20 + fw_cont fw_default + 3 <= fw_max fw_default. Proof. vm_compute. lia. Qed.
(* three ways to end in IndexError *)
Theorem C22_finding_index_error :
  snd (fw_write 999 fw_default (List.repeat "a"%char 130) 0 false) = Raise "IndexError" /\
  snd (fw_write 999 fw_default (List.repeat "!"%char 98) 0 false) = Raise "IndexError" /\
  snd (fw_write 999 fw_default (List.repeat "a"%char 100 ++ L ",") 0 false) = Raise "IndexError".
Proof. vm_compute. auto. Qed.
Print Assumptions C22_finding_index_error.

(* ---- C66 ---- *)
Lemma constants_app a la : constants a la -> forall b lb, constants b lb -> constants (a ++ b) (la ++ lb).
Proof.
  intros A b lb B. induction B as [|b l c B IH N|b l q x B IH Q N].
  - now rewrite !app_nil_r.
  - rewrite app_assoc. now constructor.
  - rewrite !app_assoc. now constructor.
Qed.
Lemma constants_code s l : constants s l -> code s.
Proof. induction 1; now constructor. Qed.
Lemma code_constants s : code s -> exists l, constants s l.
Proof. induction 1 as [|a c _ [l IH] N|a q b _ [l IH] Q N]; [exists []|exists l|exists (l ++ [b])]; now constructor. Qed.
Lemma constants_blank w : blank w -> constants w [].
Proof.
  induction w as [|c w IH] using rev_ind; intros B; [constructor|]. constructor.
  - apply IH. intros d D. apply B. apply in_or_app. now left.
  - apply space_not_quote, B. apply in_or_app. right. now left.
Qed.
(* the list of constants is determined by the text *)
Fixpoint consts_of (q : option (ascii * str)) (s : str) : list str :=
  match s with
  | [] => []
  | c :: t => match q with
              | Some (k, acc) => if Ascii.eqb c k then rev acc :: consts_of None t else consts_of (Some (k, c :: acc)) t
              | None => consts_of (if Ascii.eqb c "'" || Ascii.eqb c """" then Some (c, []) else None) t
              end
  end.
Lemma consts_in k b : ~ In k b -> forall acc t, consts_of (Some (k, acc)) (b ++ k :: t) = (rev acc ++ b) :: consts_of None t.
Proof.
  induction b as [|c b IH]; intros N acc t; cbn [app consts_of].
  - now rewrite Ascii.eqb_refl, app_nil_r.
  - destruct (Ascii.eqb_spec c k) as [->|E]; [exfalso; apply N; now left|]. rewrite IH by (intros I; apply N; now right).
    cbn [rev]. now rewrite <- app_assoc.
Qed.
Lemma consts_code s l : constants s l -> forall t, consts_of None (s ++ t) = l ++ consts_of None t.
Proof.
  induction 1 as [|a l c H IH N|a l q b H IH Q N]; intros t; auto.
  - rewrite <- app_assoc. rewrite IH. cbn [app consts_of]. now rewrite not_quote_test.
  - replace ((a ++ q :: b ++ [q]) ++ t) with (a ++ q :: b ++ q :: t) by (rewrite <- app_assoc; cbn [app]; now rewrite <- app_assoc).
    rewrite IH, <- app_assoc. f_equal. apply is_quote_test in Q. cbn [consts_of]. rewrite Q, consts_in by auto. reflexivity.
Qed.
Lemma constants_fun s l l' : constants s l -> constants s l' -> l = l'.
Proof. intros A B. apply (fun z => consts_code s l z []) in A. apply (fun z => consts_code s l' z []) in B. rewrite A in B. cbn in B. now rewrite !app_nil_r in B. Qed.
Lemma constants_same s t : same_code s t -> forall l, constants s l -> constants t l.
Proof.
  induction 1 as [s|a w w' b b' CA SA WB WB' SM IH]; intros l H; auto.
  apply code_constants in CA as [la CA].
  assert (CB : code b). { apply constants_code in H. apply code_app in H; [|now apply constants_code in CA]. apply code_app in H; auto. now apply blank_code. }
  apply code_constants in CB as [lb CB].
  assert (E : l = la ++ [] ++ lb).
  { apply (constants_fun _ _ _ H). apply constants_app; auto. apply constants_app; auto. now apply constants_blank. }
  subst l. apply constants_app; auto. apply constants_app; auto. now apply constants_blank.
Qed.
(* the character constants of a statement with places to break come out unchanged *)
Theorem C66_constants_partial w n level fuel s l : fw_fill w < fw_max w -> fw_indent w * level + fw_cont w + n <= fw_max w ->
  statement s -> short_pieces n s -> length s < fuel -> constants s l ->
  exists ls t, fw_write fuel w s level false = (ls, Ok tt) /\ folded ls t /\ constants t l.
Proof.
  intros F M SS SP FU C. destruct (C22_folding w n level fuel s F M SS SP FU) as (ls & k & t & A & B & D).
  exists ls, (blank_str k ++ t). split; auto. split; auto. change l with ([] ++ l). apply constants_app.
  - apply constants_blank, blank_rep.
  - now apply (constants_same s).
Qed.
Print Assumptions C66_constants_partial.

Definition ex_str : str := L "call write_message(first_argument, second_argument, 'a, text', third_argument, fourth_argument, fifth)".
Example C66_constants_ex : statement ex_str /\ short_pieces 32 ex_str /\ fw_indent fw_default * 20 + fw_cont fw_default + 32 <= fw_max fw_default /\
  constants ex_str [L "a, text"] /\ length (fst (fw_write 999 fw_default ex_str 0 false)) = 2.
Proof.
  split; [|split; [|split; [vm_compute; lia|split; [|vm_compute; reflexivity]]]].
  - split; [vm_compute; reflexivity|]. split; [apply quote_code; vm_compute; reflexivity|]. split; [|apply no_marks_check; vm_compute; reflexivity].
    change ex_str with (L "call write_message(first_argument, second_argument, 'a, text', third_argument, fourth_argument, fifth" ++ [")"%char]).
    apply not_sep_check; discriminate.
  - apply (short_check 30); vm_compute; reflexivity.
  - assert (C : code ex_str) by (apply quote_code; vm_compute; reflexivity). apply code_constants in C as [l C].
    assert (E : l = consts_of None ex_str) by (apply (fun z => consts_code ex_str l z []) in C; cbn [consts_of] in C; now rewrite !app_nil_r in C).
    rewrite E in C. exact C.
Qed.

(* the reading of lines is determined, and can be computed *)
Lemma amp_first w w' l l' : blank w -> blank w' -> w ++ "&"%char :: l = w' ++ "&"%char :: l' -> l = l'.
Proof.
  intros B. revert w'. induction w as [|c w IH]; intros [|c' w'] B' E; cbn in E.
  - now injection E.
  - injection E as E1 E2. subst. assert (X : is_space "&" = true) by (apply B'; now left). discriminate X.
  - injection E as E1 E2. subst. assert (X : is_space "&" = true) by (apply B; now left). discriminate X.
  - injection E as E1 E2. apply (IH (fun d D => B d (or_intror D)) w'); auto. intros d D. apply B'. now right.
Qed.
Lemma folded_inv ls t : folded ls t -> forall l r, ls = l :: r ->
  (~ ends_amp l /\ t = l) \/
  (exists a l2 r2 t2, l = a ++ L "&" /\ r = l2 :: r2 /\ t = a ++ t2 /\
     ((~ begins_amp l2 /\ folded (l2 :: r2) t2) \/ exists w x, blank w /\ l2 = w ++ "&"%char :: x /\ folded (x :: r2) t2)).
Proof.
  destruct 1 as [l bs N F|a l r t N F|a w l r t B F]; intros l' r' [= <- <-].
  - left. split; [exact N|reflexivity].
  - right. exists a, l, r, t. split; [reflexivity|]. split; [reflexivity|]. split; [reflexivity|]. left. auto.
  - right. exists a, (w ++ "&"%char :: l), r, t. split; auto. split; auto. split; auto. right. eauto.
Qed.
Lemma folded_fun ls t : folded ls t -> forall t', folded ls t' -> t = t'.
Proof.
  induction 1 as [l bs N F|a l r t N F IH|a w l r t B F IH]; intros t' H'.
  - destruct (folded_inv _ _ H' _ _ eq_refl) as [[_ ->]|(a & l2 & r2 & t2 & E & _)]; auto. exfalso. apply N. now exists a.
  - destruct (folded_inv _ _ H' _ _ eq_refl) as [[N' _]|(a' & l2 & r2 & t2 & E & [= <- <-] & -> & D)].
    + exfalso. apply N'. now exists a.
    + apply app_inv_tail in E as <-. destruct D as [[_ D]|(w & x & B & -> & _)]; [now rewrite (IH _ D)|]. exfalso. apply N. exists w, x. auto.
  - destruct (folded_inv _ _ H' _ _ eq_refl) as [[N' _]|(a' & l2 & r2 & t2 & E & E2 & -> & D)].
    + exfalso. apply N'. now exists a.
    + injection E2 as <- <-. apply app_inv_tail in E as <-. destruct D as [[N _]|(w' & x & B' & E & D)].
      * exfalso. apply N. exists w, l. auto.
      * apply amp_first in E as <-; auto. now rewrite (IH _ D).
Qed.
Fixpoint rd (h : str) (r : list str) : option str :=
  match rev h with
  | c :: a' =>
      if Ascii.eqb c "&" then
        match r with
        | [] => None
        | l2 :: r2 => match rd (match lstrip l2 with d :: x => if Ascii.eqb d "&" then x else l2 | [] => l2 end) r2 with
                      | Some t => Some (rev a' ++ t)
                      | None => None
                      end
        end
      else if forallb is_nil r then Some h else None
  | [] => if forallb is_nil r then Some h else None
  end.
Lemma all_nil (r : list str) : forallb is_nil r = true -> Forall (eq []) r.
Proof. induction r as [|[|c l] r IH]; cbn; intros H; [constructor| |discriminate]. constructor; auto. Qed.
Lemma rd_folded : forall r h t, rd h r = Some t -> folded (h :: r) t.
Proof.
  induction r as [|l2 r2 IH]; intros h t H; cbn [rd] in H.
  - destruct (rev h) as [|c a'] eqn:E.
    + cbn in H. injection H as <-. constructor; [|constructor]. intros (x & ->). rewrite rev_app_distr in E. discriminate E.
    + destruct (Ascii.eqb_spec c "&") as [->|N]; [discriminate|]. cbn in H. injection H as <-. constructor; [|constructor].
      intros (x & ->). rewrite rev_app_distr in E. cbn in E. injection E as <- _. contradiction.
  - destruct (rev h) as [|c a'] eqn:E.
    + destruct (forallb is_nil (l2 :: r2)) eqn:F; [|discriminate]. injection H as <-. constructor; [|now apply all_nil].
      intros (x & ->). rewrite rev_app_distr in E. discriminate E.
    + destruct (Ascii.eqb_spec c "&") as [->|N].
      * apply (f_equal (@rev ascii)) in E. rewrite rev_involutive in E. cbn [rev] in E. subst h.
        destruct (rd _ r2) as [t2|] eqn:R; [|discriminate]. injection H as <-. change ["&"%char] with (L "&").
        destruct (lstrip_split l2) as (w & B & EW). destruct (lstrip l2) as [|d x] eqn:LS.
        -- apply folded_more; [|now apply IH]. rewrite app_nil_r in EW. subst w. intros (v & y & BV & ->).
           assert (X : is_space "&" = true) by (apply B; apply in_or_app; right; now left). discriminate X.
        -- destruct (Ascii.eqb_spec d "&") as [->|ND].
           ++ rewrite EW. apply folded_amp; auto.
           ++ apply folded_more; [|now apply IH]. rewrite EW. apply not_begins; auto. now apply lstrip_head in LS.
      * destruct (forallb is_nil (l2 :: r2)) eqn:F; [|discriminate]. injection H as <-. constructor; [|now apply all_nil].
        intros (x & ->). rewrite rev_app_distr in E. cbn in E. injection E as <- _. contradiction.
Qed.
Lemma consts_none s l : constants s l -> l = consts_of None s.
Proof. intros H. apply (fun z => consts_code s l z []) in H. cbn in H. now rewrite !app_nil_r in H. Qed.

(* a constant of 240 characters comes out changed *)
Definition long_text : str := List.concat (List.repeat (L "abc def ") 30).
Definition long_const : str := L "x = '" ++ long_text ++ L "'".
Theorem C66_long_constant_refuted : constants long_const [long_text] /\
  exists ls, fw_write 700 fw_default long_const 0 false = (ls, Ok tt) /\
    (exists t, folded ls t) /\ forall t, folded ls t -> ~ constants t [long_text].
Proof.
  split.
  - unfold long_const. change (L "x = '" ++ long_text ++ L "'") with (L "x = " ++ "'"%char :: long_text ++ ["'"%char]).
    change [long_text] with ([] ++ [long_text]). apply constants_const.
    + change (L "x = ") with (((([] ++ ["x"%char]) ++ [" "%char]) ++ ["="%char]) ++ [" "%char]).
      repeat (apply constants_chr; [|intros [X|X]; discriminate X]). constructor.
    + now left.
    + assert (X : existsb (Ascii.eqb "'") long_text = false) by (vm_compute; reflexivity). intros I.
      assert (Y : existsb (Ascii.eqb "'") long_text = true) by (apply existsb_exists; exists "'"%char; split; [exact I|reflexivity]). congruence.
  - assert (W : exists l r t, fw_write 700 fw_default long_const 0 false = (l :: r, Ok tt) /\ rd l r = Some t /\
      match consts_of None t with [x] => length x =? 240 | _ => false end = false).
    { do 3 eexists. split; [vm_compute; reflexivity|]. split; [vm_compute; reflexivity|]. vm_compute. reflexivity. }
    destruct W as (l & r & t & W & R & D). exists (l :: r). split; auto. apply rd_folded in R. split; [eauto|].
    intros t' F C. rewrite (folded_fun _ _ F _ R) in C. apply consts_none in C. rewrite <- C in D. vm_compute in D. discriminate D.
Qed.
Print Assumptions C66_long_constant_refuted.

(* ---- C67 ---- *)
Lemma max_below_ge last l x : In x l -> 0 < x < last -> exists b, max_below last l = Some b /\ x <= b.
Proof.
  induction l as [|y l IH]; intros I B; [destruct I|]. cbn [max_below fold_right]. fold (max_below last l).
  destruct I as [->|I].
  - replace ((0 <? x) && (x <? last)) with true by (symmetry; apply andb_true_iff; split; apply Nat.ltb_lt; lia).
    eexists. split; [reflexivity|]. destruct (max_below last l); lia.
  - destruct (IH I B) as (b & -> & LE). destruct ((0 <? y) && (y <? last)); eexists; (split; [reflexivity|lia]).
Qed.
Lemma scan_to_bang cs c : forall p i q, nobang q p -> quote_from q p = None -> 0 < i + length p ->
  exists sp cm, fw_scan cs false i q (p ++ "!"%char :: c) = (sp, cm, true) /\ In (i + length p - 1) sp.
Proof.
  induction p as [|d p IH]; intros i q NB Q LN.
  - cbn in Q. subst q. cbn [app fw_scan]. cbn [length] in *. change (Ascii.eqb "!" "'" || Ascii.eqb "!" """") with false. change (Ascii.eqb "!" "!") with true. cbv iota.
    destruct (negb false && (cs <=? i)).
    + destruct i as [|k]; [lia|]. eexists. eexists. split; [reflexivity|]. left. lia.
    + destruct (fw_scan cs false (S i) None c) as [[sp cm] ic]. destruct i as [|k]; [lia|]. eexists. eexists. split; [reflexivity|]. left. lia.
  - pose proof (nobang_tail q d p NB) as NT. change (d :: p) with ([d] ++ p) in Q. rewrite quote_app in Q.
    destruct (IH (S i) _ NT Q) as (sp & cm & E & I); [lia|]. cbn [length]. replace (S i + length p - 1) with (i + S (length p) - 1) in I by lia.
    cbn [app fw_scan]. cbn [quote_from] in E. destruct q as [k|]; [rewrite E; eauto|].
    destruct (Ascii.eqb d "'" || Ascii.eqb d """") eqn:QD; [rewrite E; eauto|].
    destruct (Ascii.eqb_spec d "!") as [->|N]; [exfalso; apply (NB [] "!"%char p); auto|]. rewrite E.
    destruct (Ascii.eqb d " "); [|destruct (Ascii.eqb d ","); [|destruct (startswith _ _)]]; eexists; eexists; (split; [reflexivity|]); try (right; assumption); assumption.
Qed.
(* a statement with a comment after it: when the statement itself fits in the target
   length, the first line holds all of it and every further line is a comment *)
Theorem C67_trailing_comment_partial w fuel level cont p c ls r :
  let s := p ++ "!"%char :: c in
  fw_fill w <= fw_max w -> strip s = s -> p <> [] -> code p -> no_marks p -> 1 < indent_len w level cont + length p <= fw_fill w ->
  fw_write (S fuel) w s level cont = (ls, r) -> ls <> [] ->
  exists d l rest, ls = l :: rest /\ l = rstrip (blank_str (indent_len w level cont) ++ p ++ d) /\ (d = [] \/ exists e, d = "!"%char :: e) /\
    Forall comment_line rest.
Proof.
  intros s FM ST PN CP NM LP H NE. cbn [fw_write] in H. cbv zeta in H. rewrite ST in H. set (ind := indent_len w level cont) in *.
  destruct p as [|x p]; [contradiction|]. assert (XA : x <> "!"%char /\ x <> "&"%char) by (apply (NM [] x p); auto; constructor). destruct XA as [XB XA].
  replace (negb (is_nil s) && negb (starts_amp s)) with true in H
    by (unfold s; cbn [app is_nil starts_amp negb andb]; destruct (Ascii.eqb_spec x "&"); [contradiction|reflexivity]).
  destruct (strip_parts s ST) as [X|[_ (tl & z & Z & SZ)]]; [discriminate X|].
  destruct (fw_fill w <? length _) eqn:F.
  - assert (ISC : is_comment_text s = false) by (unfold s; cbn; destruct (Ascii.eqb_spec x "!"); [contradiction|reflexivity]).
    unfold fw_break in H. rewrite ISC, skipn_pre in H by (now rewrite rep_length).
    destruct (scan_to_bang (fw_comment_start w) c (x :: p) ind None (nobang_of _ NM) (code_quote _ CP)) as (sp & cm & E & I); [lia|].
    unfold s in H at 1. rewrite E in H. cbn [bind] in H. cbv zeta in H.
    destruct (max_below_ge (fw_fill w) sp _ I) as (b & MB & LB); [lia|]. pose proof (max_below_some _ _ _ MB) as [_ LB2].
    assert (FB : find_best_break w sp = b).
    { unfold find_best_break. rewrite MB. replace (fw_max w <? b) with false by (symmetry; apply Nat.ltb_ge; lia). reflexivity. }
    rewrite FB in H. replace (fw_fill w <=? b) with false in H by (symmetry; apply Nat.leb_gt; lia).
    replace (fw_max w <=? b) with false in H by (symmetry; apply Nat.leb_gt; lia).
    match type of H with context [bind ?y _] => destruct y as [lc|e]; cbn [bind] in H; [|injection H as <- _; now contradiction NE] end.
    cbn [orb truthy] in H. rewrite app_nil_r in H.
    assert (FI : exists d, firstn (S b) (blank_str ind ++ s) = blank_str ind ++ (x :: p) ++ d /\ (d = [] \/ exists e, d = "!"%char :: e)).
    { exists (firstn (S b - ind - length (x :: p)) ("!"%char :: c)). split.
      - rewrite firstn_past by (rewrite rep_length; lia). rewrite rep_length. f_equal. unfold s. rewrite firstn_past by lia. reflexivity.
      - destruct (S b - ind - length (x :: p)); cbn [firstn]; eauto. }
    destruct FI as (d & FI & D). rewrite FI in H.
    replace (b =? 0) with false in H by (symmetry; apply Nat.eqb_neq; lia).
    match type of H with context [fw_write fuel w ?st level ?k] => destruct (fw_write fuel w st level k) as [ls2 r2] eqn:W end.
    injection H as <- _. exists d. eexists. eexists. split; [reflexivity|]. split; [reflexivity|]. split; [exact D|].
    match type of W with fw_write _ _ (_ ++ ?y) _ _ = _ => destruct (bang_strip (" "%char :: y)) as (t2 & E2) end.
    apply (comment_main _ _ _ _ _ _ _ _ E2 W).
  - injection H as <- _. exists ("!"%char :: c). eexists. eexists. split; [reflexivity|]. split; [|split; [eauto|constructor]].
    fold s. rewrite Z, app_assoc, rstrip_nonblank by auto. reflexivity.
Qed.
Print Assumptions C67_trailing_comment_partial.
Definition ex_trail : str := L "x = y " ++ L "! " ++ List.concat (List.repeat (L "word ") 30) ++ L "end".
Example C67_trailing_comment_ex : exists l1 l2, fw_write 99 fw_default ex_trail 1 false = ([l1; l2], Ok tt) /\ strip ex_trail = ex_trail.
Proof. do 2 eexists. split; vm_compute; reflexivity. Qed.

(* otherwise code can become comment: "lost" is no longer part of the program *)
Definition ex_lost : str := List.repeat "a"%char 96 ++ L " = lost ! why".
Theorem C67_code_lost_refuted : exists l1 l2, fw_write 99 fw_default ex_lost 0 false = ([l1; l2], Ok tt) /\
  l1 = List.repeat "a"%char 96 /\ l2 = L "! = lost ! why".
Proof. do 2 eexists. split; [vm_compute; reflexivity|]. split; reflexivity. Qed.
Print Assumptions C67_code_lost_refuted.
