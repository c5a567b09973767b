(* FWFold.v: folding keeps the text; termination; comments. *)
From Verif Require Import PyStr FWModel FWSpec FWProofs CheckProofs.
Open Scope nat_scope.
Open Scope list_scope.

(* ---- line lengths ---- *)
Lemma fw_break_bound w ind o s b lc ic : fw_break w ind o s = Ok (b, lc, ic) -> 1 <= fw_max w -> b < fw_max w.
Proof.
  unfold fw_break. destruct (fw_scan _ _ ind None (skipn ind s)) as [[sp cm] i].
  intros H M. apply bind_ok in H as (sps & _ & H). cbv zeta in H. apply bind_ok in H as (l & _ & H). injection H as <- _ _.
  destruct (fw_max w <=? _) eqn:E; [lia|]. apply Nat.leb_gt in E. exact E.
Qed.
Lemma rstrip_len s : length (rstrip s) <= length s.
Proof.
  unfold rstrip. rewrite rev_length. destruct (dropwhile_app is_space (rev s)) as (p & P & _).
  apply (f_equal (@length ascii)) in P. rewrite app_length, rev_length in P. lia.
Qed.
Lemma fw_bound w : 1 <= fw_max w -> forall fuel stmt level cont ls r, fw_write fuel w stmt level cont = (ls, r) ->
  forall l, In l ls -> length l <= Nat.max (fw_fill w + 2) (fw_max w + 1).
Proof.
  intros M. induction fuel as [|fuel IH]; intros stmt level cont ls r H l I; cbn [fw_write] in H.
  - injection H as <- _. destruct I.
  - cbv zeta in H. destruct (fw_fill w <? length _) eqn:F.
    + destruct (fw_break _ _ _ _) as [[[b lc] ic]|e] eqn:B; [|injection H as <- _; destruct I].
      apply fw_break_bound in B; auto.
      match type of H with context [rstrip ?x] => assert (LN : length (rstrip x) <= Nat.max (fw_fill w + 2) (fw_max w + 1)) end.
      { etransitivity; [apply rstrip_len|]. rewrite app_length, firstn_length.
        destruct (truthy lc); [rewrite app_length, rep_length; change (length (L "&")) with 1|cbn [length]]; lia. }
      destruct (b =? 0).
      * injection H as <- _. destruct I as [<-|[]]. exact LN.
      * match type of H with context [fw_write fuel w ?s level ?c] => destruct (fw_write fuel w s level c) as [ls2 r2] eqn:W end.
        injection H as <- _. destruct I as [<-|I]; [exact LN|]. now apply (IH _ _ _ _ _ W).
    + injection H as <- _. destruct I as [<-|[]]. apply Nat.ltb_ge in F. lia.
Qed.

(* ---- text ---- *)
Lemma code_last t c : code (t ++ [c]) -> ~ is_quote c -> code t.
Proof.
  intros H N. destruct (quote_cases t) as [C|(a & q & b & -> & C & Q & NI)]; auto. exfalso.
  apply code_quote in H. rewrite <- app_assoc in H. cbn [app] in H. rewrite quote_app, (code_quote _ C) in H. cbn [quote_from] in H.
  apply is_quote_test in Q as Q'. rewrite Q', quote_app, quote_in in H by auto. cbn [quote_from] in H.
  destruct (Ascii.eqb_spec c q) as [->|E]; [contradiction|discriminate].
Qed.
Lemma amp_not_quote : ~ is_quote "&". Proof. intros [X|X]; discriminate X. Qed.
Lemma last_unique {A} (a b : list A) x y : a ++ [x] = b ++ [y] -> a = b /\ x = y.
Proof. apply app_inj_tail. Qed.
Lemma not_ends_amp w s : code s -> no_marks s -> blank w -> ~ ends_amp (w ++ s).
Proof.
  intros C NM B (t & E). destruct s as [|c s' _] using rev_ind.
  - rewrite app_nil_r in E. assert (X : is_space "&" = true) by (apply B; rewrite E; apply in_or_app; right; now left). discriminate X.
  - rewrite app_assoc in E. apply last_unique in E as [_ ->]. apply code_last in C; [|apply amp_not_quote].
    now destruct (NM s' "&"%char [] eq_refl C).
Qed.
Lemma not_begins w c t : blank w -> is_space c = false -> c <> "&"%char -> ~ begins_amp (w ++ c :: t).
Proof.
  intros B S N (w' & t' & B' & E). revert w' B' E. induction w as [|d w IH]; intros w' B' E; destruct w' as [|e w']; cbn in E; injection E as E1 E2.
  - contradiction.
  - subst. assert (X : is_space e = true) by (apply B'; now left). congruence.
  - subst. assert (X : is_space "&" = true) by (apply B; now left). discriminate X.
  - apply IH with (w' := w'); auto; intros x X; [apply B|apply B']; now right.
Qed.
Lemma nobang_of s : no_marks s -> nobang None s.
Proof. intros NM a c b E Q. apply quote_code in Q. now destruct (NM a c b E Q). Qed.
Lemma strip_fix c t t' d : c :: t = t' ++ [d] -> is_space c = false -> is_space d = false -> strip (c :: t) = c :: t.
Proof.
  intros E C D. unfold strip. assert (X : lstrip (c :: t) = c :: t) by (unfold lstrip; cbn; now rewrite C).
  rewrite X, E. now apply rstrip_nonblank.
Qed.
Lemma skipn_pre {A} (a b : list A) n : n = length a -> skipn n (a ++ b) = b.
Proof. intros ->. rewrite skipn_app, skipn_all, Nat.sub_diag. reflexivity. Qed.
Lemma firstn_pre {A} (a b : list A) n : n = length a -> firstn n (a ++ b) = a.
Proof. intros ->. rewrite firstn_app, firstn_all, Nat.sub_diag. cbn. apply app_nil_r. Qed.

(* the break chosen in a statement *)
Lemma break_statement w n ind c t : fw_fill w < fw_max w -> ind + n <= fw_max w ->
  let s := c :: t in
  statement s -> short_pieces n s -> fw_fill w < length (blank_str ind ++ s) ->
  (exists a b d r g, s = a ++ b /\ code a /\ sep a /\ 0 < length a /\ S g = ind + length a /\ 0 < g /\ lstrip b = d :: r /\
     fw_break w ind s (blank_str ind ++ s) = Ok (g, LYes, false)) \/
  (length (blank_str ind ++ s) <= fw_max w - 1 /\
   fw_break w ind s (blank_str ind ++ s) = Ok (fw_max w - 1, LNo, false)).
Proof.
  intros FM IM s (ST & C & NS & NM) SP FL.
  assert (ISC : is_comment_text s = false).
  { unfold s, is_comment_text. destruct (Ascii.eqb_spec c "!") as [->|]; auto.
    now destruct (NM [] "!"%char t eq_refl code_nil). }
  unfold fw_break. rewrite ISC, skipn_pre by (now rewrite rep_length).
  pose proof (scan_sound (fw_comment_start w) false s ind None (nobang_of s NM)) as SO.
  pose proof (scan_complete (fw_comment_start w) false s ind None I (nobang_of s NM)) as SC.
  destruct (fw_scan (fw_comment_start w) false ind None s) as [[sp cm] ic]. destruct SO as [-> SO].
  cbn [bind]. cbv zeta.
  set (b1 := find_best_break w sp). set (b2 := if fw_fill w <=? b1 then Nat.min b1 (find_best_break w cm) else b1).
  assert (B2 : (is_break None s ind b2 /\ 0 < b2 < fw_max w) \/ (fw_max w <= b2 /\ forall x, is_break None s ind x -> ~ 0 < x < fw_max w)).
  { unfold b2, b1. destruct (best_spec w sp FM) as [[I1 L1]|[E1 N1]], (best_spec w cm FM) as [[I2 L2]|[E2 N2]].
    - left. destruct (fw_fill w <=? find_best_break w sp); [|split; auto].
      destruct (Nat.min_spec (find_best_break w sp) (find_best_break w cm)) as [[_ ->]|[_ ->]]; split; auto.
    - left. rewrite E2. destruct (fw_fill w <=? find_best_break w sp); [rewrite Nat.min_l by lia|]; split; auto.
    - left. rewrite E1. replace (fw_fill w <=? S (fw_max w)) with true by (symmetry; apply Nat.leb_le; lia).
      rewrite Nat.min_r by lia. split; auto.
    - right. rewrite E1, E2, Nat.min_id. split; [match goal with |- context [if ?b then _ else _] => destruct b end; lia|]. intros x X. apply SC in X as [X|X]; auto. }
  clearbody b2. clear b1 SO SC. destruct B2 as [[(a & b & E & LN & Q & SA) [L0 LM]]|[L2 NB]].
  - left. replace (fw_max w <=? b2) with false by (symmetry; apply Nat.leb_gt; lia).
    rewrite app_length, rep_length. replace (b2 <? ind + length s) with true by (symmetry; apply Nat.ltb_lt; rewrite E, app_length; destruct b as [|x b]; [|cbn [length]; lia]; rewrite app_nil_r in E; rewrite E in NS; contradiction).
    rewrite E, app_assoc, firstn_pre, skipn_pre by (rewrite app_length, rep_length; lia).
    unfold in_quote. rewrite quote_app, blank_quote, Q by apply blank_rep.
    apply quote_code in Q as CA.
    assert (PA : 0 < length a). { destruct a; cbn; [|lia]. destruct SA as (p & P). destruct P as [P|[P|P]]; apply (f_equal (@length ascii)) in P; rewrite app_length in P; cbn in P; lia. }
    destruct (lstrip_split b) as (wb & WB & EB). destruct (lstrip b) as [|d r] eqn:LB.
    + exfalso. rewrite app_nil_r in EB. subst wb. destruct (strip_parts s ST) as [X|[_ (t' & d & D & SD)]]; [discriminate X|].
      destruct b as [|x b _] using rev_ind; [rewrite app_nil_r in E; rewrite E in NS; contradiction|].
      rewrite D, app_assoc in E. apply last_unique in E as [_ ->]. rewrite (WB x) in SD by (apply in_or_app; right; now left). discriminate.
    + exists a, b, d, r, b2. split; auto. split; auto. split; auto. split; auto. split; auto. split; auto. split; auto.
      destruct (Ascii.eqb_spec d "!") as [->|ND].
      * exfalso. assert (CW : code (a ++ wb)) by (apply code_app; [auto|now apply blank_code]).
        destruct (NM (a ++ wb) "!"%char r) as [X _]; [now rewrite E, EB, <- app_assoc|exact CW|contradiction].
      * reflexivity.
  - right. assert (LS : length s < n).
    { destruct (Nat.lt_ge_cases (length s) n) as [|G]; auto. exfalso.
      destruct (SP [] s eq_refl code_nil G) as (u & v & EU & LU & CU & SU). apply (NB (ind + length u - 1)); [|lia].
      exists u, v. split; auto. split; [lia|]. split; [now apply code_quote|auto]. }
    assert (LB : length (blank_str ind ++ s) <= fw_max w - 1) by (rewrite app_length, rep_length; lia).
    split; auto. replace (fw_max w <=? b2) with true by (symmetry; apply Nat.leb_le; lia).
    replace (fw_max w - 1 <? length (blank_str ind ++ s)) with false by (symmetry; apply Nat.ltb_ge; lia). reflexivity.
Qed.

Lemma fold_main w n level : fw_fill w < fw_max w -> fw_indent w * level + fw_cont w + n <= fw_max w ->
  forall fuel stmt cont s, strip stmt = s -> statement s -> short_pieces n s -> length s < fuel ->
  exists ls k t, fw_write fuel w stmt level cont = (ls, Ok tt) /\ folded ls (blank_str k ++ t) /\ same_code s t /\
    (exists l r, ls = l :: r /\ ~ begins_amp l).
Proof.
  intros FM NM. induction fuel as [|fuel IH]; intros stmt cont s ST SS SP FU; [lia|].
  cbn [fw_write]. cbv zeta. rewrite ST. destruct s as [|c t].
  - cbn [is_nil negb andb length]. replace (fw_fill w <? 0) with false by (symmetry; apply Nat.ltb_ge; lia).
    exists [[]], 0, []. split; [reflexivity|]. split; [|split; [constructor|]].
    + constructor; [|constructor]. intros (x & X). destruct x; discriminate X.
    + exists [], []. split; auto. intros (x & y & _ & X). destruct x; discriminate X.
  - set (s := c :: t) in *. set (ind := indent_len w level cont).
    destruct SS as (S1 & S2 & S3 & S4). destruct (strip_parts s S1) as [X|[(c' & t' & E1 & SC) (tl & d & D & SD)]]; [discriminate X|].
    unfold s in E1. injection E1 as <- <-.
    assert (NA : c <> "&"%char) by (now destruct (S4 [] c t eq_refl code_nil)).
    replace (starts_amp s) with false by (unfold s, starts_amp; destruct (Ascii.eqb_spec c "&"); [contradiction|reflexivity]).
    replace (is_nil s) with false by reflexivity. cbn [negb andb].
    assert (IND : ind + n <= fw_max w) by (unfold ind, indent_len; destruct cont; lia).
    assert (EA : ~ ends_amp (blank_str ind ++ s)) by (apply not_ends_amp; auto using blank_rep).
    assert (BA : ~ begins_amp (blank_str ind ++ s)) by (unfold s; apply not_begins; auto using blank_rep).
    destruct (fw_fill w <? length (blank_str ind ++ s)) eqn:F.
    + apply Nat.ltb_lt in F. pose proof (break_statement w n ind c t FM IND (conj S1 (conj S2 (conj S3 S4))) SP F) as BS.
      cbv zeta in BS. change (c :: t) with s in BS. fold ind.
      destruct BS as [(a & b & d' & r & g & E & CA & SA & LA & G & G0 & LB & ->)|[LN ->]].
      * cbn [truthy negb andb]. replace (g =? 0) with false by (symmetry; apply Nat.eqb_neq; lia).
        replace (skipn (S g) (blank_str ind ++ s)) with b by (rewrite E, app_assoc, skipn_pre by (rewrite app_length, rep_length; lia); reflexivity).
        replace (firstn (S g) (blank_str ind ++ s)) with (blank_str ind ++ a) by (rewrite E, app_assoc, firstn_pre by (rewrite app_length, rep_length; lia); reflexivity).
        change ([] ++ b) with b.
        destruct (lstrip_split b) as (wb & WB & EB). rewrite LB in EB.
        assert (TB : strip b = d' :: r).
        { unfold strip. rewrite LB. destruct r as [|x r _] using rev_ind.
          - change [d'] with ([] ++ [d']). apply rstrip_nonblank. now apply lstrip_head in LB.
          - rewrite E, EB in D. change (d' :: r ++ [x]) with ((d' :: r) ++ [x]) in *. rewrite !app_assoc in D.
            apply last_unique in D as [_ ->]. now apply rstrip_nonblank. }
        assert (CW : code (a ++ wb)) by (apply code_app; [auto|now apply blank_code]).
        assert (EW : s = (a ++ wb) ++ d' :: r) by (now rewrite E, EB, <- app_assoc).
        assert (SS' : statement (d' :: r)).
        { split; [rewrite <- TB; apply strip_idem|].
          split; [|split].
            + rewrite EW in S2. now apply code_app in S2.
            + intros (p & P). apply S3. exists ((a ++ wb) ++ p). rewrite EW, <- !app_assoc. destruct P as [-> |[-> | ->]]; auto.
            + intros a' c' b' E' C'. apply (S4 ((a ++ wb) ++ a') c' b'); [now rewrite EW, E', <- !app_assoc|now apply code_app]. }
        assert (SP' : short_pieces n (d' :: r)).
        { intros a' b' E' C' LN. apply (SP ((a ++ wb) ++ a') b'); [now rewrite EW, E', <- !app_assoc|now apply code_app|auto]. }
        assert (LT : length (d' :: r) < fuel).
        { assert (X : length s = length (a ++ wb) + length (d' :: r)) by (rewrite EW at 1; apply app_length). rewrite app_length in X. lia. }
        destruct (IH b true (d' :: r) TB SS' SP' LT) as (ls & k & t2 & -> & FO & SM & l & r2 & -> & NB).
        rewrite app_assoc. change (L "&") with ["&"%char]. rewrite rstrip_nonblank by reflexivity.
        exists ((((blank_str ind ++ a) ++ blank_str (fw_fill w - g)) ++ L "&") :: l :: r2), ind, (a ++ (blank_str (fw_fill w - g) ++ blank_str k) ++ t2).
        split; [reflexivity|]. split; [|split].
        -- replace (blank_str ind ++ a ++ (blank_str (fw_fill w - g) ++ blank_str k) ++ t2)
             with (((blank_str ind ++ a) ++ blank_str (fw_fill w - g)) ++ (blank_str k ++ t2)) by (rewrite <- !app_assoc; reflexivity).
           apply folded_more; auto.
        -- rewrite E, EB. apply same_gap; auto. apply blank_app; apply blank_rep.
        -- eexists. eexists. split; [reflexivity|]. destruct a as [|x a]; [cbn in LA; lia|]. unfold s in E. injection E as <- _.
           rewrite <- !app_assoc. cbn [app]. apply not_begins; auto using blank_rep.
      * cbn [truthy]. replace (fw_max w - 1 =? 0) with false by (symmetry; apply Nat.eqb_neq; lia).
        rewrite app_nil_r, firstn_all2, skipn_all2 by lia. cbn [app].
        assert (RS : rstrip (blank_str ind ++ s) = blank_str ind ++ s) by (rewrite D, app_assoc; now apply rstrip_nonblank).
        rewrite RS. destruct fuel as [|fuel']; [cbn in FU; lia|].
        cbn [fw_write is_nil negb andb length app]. cbv zeta. cbn [strip lstrip rstrip dropwhile rev is_nil negb andb length].
        replace (fw_fill w <? 0) with false by (symmetry; apply Nat.ltb_ge; lia).
        exists [blank_str ind ++ s; []], ind, s. split; [reflexivity|]. split; [|split; [constructor|]].
        -- constructor; auto.
        -- eauto.
    + exists [blank_str ind ++ s], ind, s. split; [reflexivity|]. split; [|split; [constructor|]].
      * constructor; auto.
      * eauto.
Qed.
