(* FWLayout.v: layout of the lines FortranWriter.write emits. *)
From Verif Require Import PyStr FWModel FWSpec FWProofs FWFold FWKeep CheckProofs.
Open Scope nat_scope.
Open Scope list_scope.

Lemma rstrip_keep p c x : is_space c = false -> exists y, rstrip (p ++ c :: x) = p ++ c :: y.
Proof.
  intros NS. destruct (rstrip_split (p ++ c :: x)) as (w & B & E). set (r := rstrip (p ++ c :: x)) in *. clearbody r.
  revert r E. induction p as [|d p IH]; intros r E; cbn [app] in *.
  - destruct r as [|e r]; [exfalso; cbn [app] in E|cbn [app] in E; injection E as -> _; now exists r]. subst w. assert (X : is_space c = true) by (apply B; now left). congruence.
  - destruct r as [|e r].
    + exfalso. cbn [app] in E. assert (X : is_space c = true); [|congruence]. apply B. rewrite <- E. right. apply in_or_app. right. now left.
    + cbn [app] in E. injection E as -> E. destruct (IH r E) as (y & ->). now exists y.
Qed.
Lemma plain_sub s t : plain_text s -> (forall c, In c t -> In c s) -> plain_text t.
Proof. intros P H c I. apply P. now apply H. Qed.
Lemma strip_in c s : In c (strip s) -> In c s.
Proof.
  unfold strip. intros I. destruct (rstrip_split (lstrip s)) as (w & _ & E). destruct (lstrip_split s) as (w' & _ & E').
  rewrite E'. apply in_or_app. right. rewrite E. apply in_or_app. now left.
Qed.
Lemma rstrip_in c s : In c (rstrip s) -> In c s.
Proof. intros I. destruct (rstrip_split s) as (w & _ & E). rewrite E. apply in_or_app. now left. Qed.
Lemma plain_code s : plain_text s -> quote_from None s = None.
Proof.
  intros P. apply code_spec. induction s as [|c s IH] using rev_ind; [constructor|]. constructor.
  - apply IH. apply (plain_sub _ _ P). intros d D. apply in_or_app. now left.
  - apply P. apply in_or_app. right. now left.
Qed.
Lemma in_skipn {A} (x : A) n l : In x (skipn n l) -> In x l.
Proof. intros I. rewrite <- (firstn_skipn n l). apply in_or_app. now right. Qed.
Lemma in_firstn {A} (x : A) n l : In x (firstn n l) -> In x l.
Proof. intros I. rewrite <- (firstn_skipn n l). apply in_or_app. now left. Qed.
Lemma break_low w ind c t b lc ic : ind + 1 <= fw_max w -> is_space c = false ->
  fw_break w ind (c :: t) (blank_str ind ++ c :: t) = Ok (b, lc, ic) -> ind <= b.
Proof.
  intros M NS H. apply break_pos in H as (sp & cm & sps & SC & FS & BP & _).
  rewrite skipn_pre in SC by (now rewrite rep_length).
  assert (LOW : In b sp \/ In b cm -> ind <= b \/ (S b = ind /\ c = "!"%char)).
  { intros I. pose proof (scan_lower (fw_comment_start w) (is_comment_text (c :: t)) (c :: t) ind None b) as Z. rewrite SC in Z.
    destruct (Z I) as [Y|(X & _ & t' & Y)]; [now left|right]. split; auto. now injection Y. }
  destruct BP as [->|[B0 I]]; [lia|].
  destruct (is_comment_text (c :: t)) eqn:IC.
  - destruct FS as (fs & FS & ->). apply first_signif_spec in FS as [F1 _]. destruct I as [I|I].
    + apply filter_In in I as [_ I]. apply Nat.leb_le in I. lia.
    + pose proof (scan_cm_signif (fw_comment_start w) true (c :: t) ind None b) as Z. rewrite SC in Z. specialize (Z I).
      destruct (S b - ind) as [|k] eqn:E; [cbn in Z; lia|lia].
  - subst sps. destruct (LOW I) as [|[_ ->]]; auto. discriminate IC.
Qed.
Lemma break_plain w ind o out b lc ic : fw_break w ind o out = Ok (b, lc, ic) -> plain_text out -> lc <> LAmp.
Proof.
  intros H P E. apply break_pos in H as (_ & _ & _ & _ & _ & _ & Q). specialize (Q E). unfold in_quote in Q.
  rewrite plain_code in Q; [discriminate|]. apply (plain_sub _ _ P). intros c. apply in_firstn.
Qed.

Lemma layout_main w level : fw_indent w * level + fw_cont w + 1 <= fw_max w ->
  forall fuel stmt cont ls r, fw_write fuel w stmt level cont = (ls, r) -> plain_text stmt ->
  layout (fw_indent w * level) (fw_cont w) (indent_len w level cont) ls.
Proof.
  intros M. induction fuel as [|fuel IH]; intros stmt cont ls r H P; cbn [fw_write] in H; [injection H as <- _; constructor|].
  cbv zeta in H. assert (IND : indent_len w level cont + 1 <= fw_max w) by (unfold indent_len; destruct cont; lia).
  set (ind := indent_len w level cont) in *.
  assert (PS : plain_text (strip stmt)) by (apply (plain_sub _ _ P); intros c; apply strip_in).
  assert (STS : strip (strip stmt) = strip stmt) by apply strip_idem.
  destruct (strip stmt) as [|c t] eqn:ES.
  { cbn [is_nil negb andb length] in H. replace (fw_fill w <? 0) with false in H by reflexivity. injection H as <- _.
    apply layout_last; [now left| |constructor]. intros (x & X). destruct x; discriminate X. }
  assert (NS : is_space c = false).
  { destruct (strip_parts _ STS) as [X|[(c' & t' & E & N) _]]; [discriminate|]. now injection E as -> ->. }
  assert (NA : c <> "&"%char) by (apply PS; now left).
  cbn [is_nil negb andb starts_amp] in H. replace (Ascii.eqb c "&") with false in H by (symmetry; now apply Ascii.eqb_neq). cbn [negb andb] in H. cbv iota in H.
  assert (PO : plain_text (blank_str ind ++ c :: t)).
  { intros d D. apply in_app_or in D as [D|D]; [|now apply PS]. apply List.repeat_spec in D. subst d. split; [discriminate|]. intros [X|X]; discriminate X. }
  destruct (fw_fill w <? length _).
  - destruct (fw_break w ind (c :: t) _) as [[[b lc] ic]|e] eqn:B; [|injection H as <- _; constructor].
    assert (LB := break_low _ _ _ _ _ _ _ IND NS B). assert (NL := break_plain _ _ _ _ _ _ _ B PO).
    match type of H with context [rstrip ?x] => set (line := x) in * end.
    assert (HEAD : exists y, firstn (S b) (blank_str ind ++ c :: t) = blank_str ind ++ c :: y).
    { rewrite firstn_past by (rewrite rep_length; lia). rewrite rep_length. replace (S b - ind) with (S (b - ind)) by lia. cbn [firstn]. eauto. }
    destruct HEAD as (y & HEAD).
    assert (II : indented ind (rstrip line)).
    { unfold line. rewrite HEAD, <- app_assoc. cbn [app]. destruct (rstrip_keep (blank_str ind) c (y ++ (if truthy lc then blank_str (fw_fill w - b) ++ L "&" else [])) NS) as (z & ->). right. exists c, z. auto. }
    assert (AMP : ends_amp (rstrip line) <-> truthy lc = true).
    { unfold line. destruct (truthy lc).
      - split; auto. intros _. rewrite app_assoc. change (L "&") with ["&"%char]. rewrite rstrip_nonblank by reflexivity. eexists. reflexivity.
      - split; [|discriminate]. intros (x & X). exfalso. rewrite app_nil_r in X.
        assert (I : In "&"%char (rstrip (firstn (S b) (blank_str ind ++ c :: t)))) by (rewrite X; apply in_or_app; right; now left).
        apply rstrip_in, in_firstn, PO in I. now apply I. }
    destruct (b =? 0).
    { injection H as <- _. destruct (truthy lc) eqn:T.
      - apply layout_more; auto; [now apply AMP|constructor].
      - apply layout_last; auto; [|constructor]. intros X. apply AMP in X. discriminate X. }
    match type of H with context [fw_write fuel w ?s level ?k] => set (st := s) in *; destruct (fw_write fuel w st level k) as [ls2 r2] eqn:W end.
    injection H as <- _.
    assert (PST : plain_text st).
    { unfold st. assert (P1 : plain_text ((if ic then L "! " else []) ++ skipn (S b) (blank_str ind ++ c :: t))).
      { intros d D. apply in_app_or in D as [D|D]; [|apply in_skipn in D; now apply PO].
        destruct ic; [|destruct D]. destruct D as [<-|[<-|[]]]; (split; [discriminate|]; intros [X|X]; discriminate X). }
      destruct lc; auto. now elim NL. }
    apply IH in W; auto. unfold indent_len in W. destruct (truthy lc) eqn:T.
    + apply layout_more; auto. now apply AMP.
    + apply layout_last; auto; [intros X; apply AMP in X; discriminate X|]. now rewrite Nat.add_0_r in W.
  - injection H as <- _. apply layout_last; [right; exists c, t; auto| |constructor].
    intros (x & X). assert (I : In "&"%char (blank_str ind ++ c :: t)) by (rewrite X; apply in_or_app; right; now left). apply PO in I. now apply I.
Qed.
