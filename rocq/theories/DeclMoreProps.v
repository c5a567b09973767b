(* DeclMoreProps.v: character declarations, type definitions, statements that declare
   nothing, initial values (C114-C117). *)
From Verif Require Import PyStr Base LineSpec LineModel LineProofs CheckModel CheckProofs DeclModel DeclSpec DeclProofs DeclHeads DeclBody DeclProps.
From Coq Require Import Lia.
Open Scope nat_scope.
Open Scope list_scope.

(* ---- what is cut off ---- *)
Lemma prefix_firstn n (s : str) : exists q, s = firstn n s ++ q.
Proof. exists (skipn n s). symmetry. apply firstn_skipn. Qed.
Lemma cut_prefix s : exists q, s = cut_line s ++ q.
Proof.
  unfold cut_line. destruct (find_c "(" s), (find_c "," s); try (destruct (n0 <? n)); try apply prefix_firstn. exists []. now rewrite app_nil_r.
Qed.
Lemma cut_at_comma x t : ~ In "("%char x -> ~ In ","%char x -> cut_line (x ++ ","%char :: t) = x.
Proof.
  intros A B. unfold cut_line. rewrite (find_c_no "(" x), (find_c_no "," x) by auto. cbn [find_c Ascii.eqb Bool.eqb].
  assert (E : firstn (length x + 0) (x ++ ","%char :: t) = x) by (rewrite Nat.add_0_r, firstn_app, firstn_all, Nat.sub_diag; cbn; now rewrite app_nil_r).
  destruct (find_c "(" t) as [n|]; [|exact E]. destruct (Nat.ltb_spec (length x + 0) (length x + S n)); [exact E|lia].
Qed.
Lemma cut_comma s p q : cut_line s = p ++ ","%char :: q -> ~ In "("%char p -> ~ In ","%char p -> False.
Proof.
  intros E A B. destruct (cut_prefix s) as (z & Z). rewrite E in Z. rewrite <- app_assoc in Z. cbn [app] in Z. rewrite Z, cut_at_comma in E by auto.
  apply (f_equal (@length ascii)) in E. rewrite app_length in E. cbn in E. lia.
Qed.
(* the statement without its comment *)
Lemma bare w0 x c : blank w0 -> ~ In "!"%char x -> comment c ->
  (if has_c "!" (strip (w0 ++ x ++ c)) then rstrip (upto_c "!" (strip (w0 ++ x ++ c))) else strip (w0 ++ x ++ c)) = strip x /\ ~ In "!"%char (strip x).
Proof.
  intros W N C. rewrite strip_blank_l by auto. split; [now apply comment_cut|]. intros I. now apply strip_in in I.
Qed.

(* ---- C114: character declarations ---- *)
Lemma char_start t r : spells t (L "character") -> exists r', strip (t ++ r) = t ++ r' /\ exists z, r = r' ++ z.
Proof.
  intros H. destruct (spells_solid t _ H ltac:(easy) eq_refl) as [(c & u & E & C) (u' & c' & E' & C')].
  destruct (blank_or_last r) as [B|(p & d & v & -> & D & V)].
  - exists []. rewrite strip_blank_r by auto. rewrite strip_solid by (apply (spells_solid t _ H ltac:(easy) eq_refl)). rewrite app_nil_r. split; auto. now exists r.
  - exists (p ++ [d]). split; [|exists v; now rewrite <- app_assoc]. rewrite E. cbn [app]. rewrite strip_from by auto. rewrite app_assoc, rstrip_after, (rstrip_nil v V) by auto.
    now rewrite <- app_assoc.
Qed.
Lemma prefix_app (a b p q : str) : a ++ b = p ++ q -> (exists z, p = a ++ z /\ b = z ++ q) \/ exists z, a = p ++ z /\ q = z ++ b.
Proof.
  revert p. induction a as [|c a IH]; intros p E; [left; exists p; auto|]. destruct p as [|d p]; [right; exists (c :: a); auto|].
  cbn in E. injection E as <- E. apply IH in E as [(z & -> & E)|(z & -> & E)]; [left|right]; exists z; auto.
Qed.
Lemma cut_keeps x r : ~ In "("%char x -> ~ In ","%char x -> exists k, cut_line (x ++ r) = x ++ k /\ exists z, r = k ++ z.
Proof.
  intros A B. unfold cut_line. rewrite (find_c_no "(" x), (find_c_no "," x) by auto.
  assert (CP : forall s d p, p <= close_pos s d p). { clear. intros s. induction s as [|c s IH]; intros [|d] p; cbn; try lia. etransitivity; [|apply IH]. lia. }
  assert (F : forall n, length x <= n -> exists k, firstn n (x ++ r) = x ++ k /\ exists z, r = k ++ z).
  { intros n N. rewrite firstn_app, firstn_all2 by lia. exists (firstn (n - length x) r). split; auto. apply prefix_firstn. }
  assert (G : forall n s, firstn (close_pos s 1 (length x + n + 1) + 1) (x ++ r) = firstn (close_pos s 1 (length x + n + 1) + 1) (x ++ r) /\ length x <= close_pos s 1 (length x + n + 1) + 1).
  { intros n s0. split; auto. pose proof (CP s0 1 (length x + n + 1)). lia. }
  destruct (find_c "(" r) as [p|], (find_c "," r) as [q|].
  - destruct (Nat.ltb (length x + q) (length x + p)); apply F; [lia|apply G].
  - apply F, G.
  - apply F. lia.
  - exists r. split; auto. exists []. now rewrite app_nil_r.
Qed.
(* the cut line, stripped: the word and the beginning of the rest *)
Lemma cut_char t r : spells t (L "character") -> exists r', strip (cut_line (t ++ r)) = t ++ r' /\ (exists z, r = r' ++ z) /\
  (forall p q, r' = p ++ ","%char :: q -> ~ In "("%char p -> ~ In ","%char p -> False).
Proof.
  intros H. assert (A := spells_alpha _ _ H eq_refl). assert (AP : ~ In "("%char t) by now apply (noin is_alpha). assert (AC : ~ In ","%char t) by now apply (noin is_alpha).
  destruct (cut_keeps t r AP AC) as (k & E & z & Z). destruct (char_start t k H) as (r' & S & z' & Z'). exists r'. rewrite E. split; auto.
  split; [exists (z' ++ z); now rewrite Z, Z', <- app_assoc|]. intros p q P N1 N2. subst k. rewrite P in E.
  apply (cut_comma (t ++ r) (t ++ p) (q ++ z')); [rewrite E, <- !app_assoc; reflexivity| |]; rewrite in_app_iff; tauto.
Qed.
Lemma lstrip_idem s : lstrip (lstrip s) = lstrip s.
Proof. unfold lstrip. induction s as [|c s IH]; cbn; auto. destruct (is_space c) eqn:E; auto. cbn. now rewrite E. Qed.
Lemma blanks_lstrip s : blanks (lstrip s) = [].
Proof. unfold lstrip, blanks. induction s as [|c s IH]; cbn; auto. destruct (is_space c) eqn:E; auto. cbn. now rewrite E. Qed.
Lemma split_blanks s : s = blanks s ++ lstrip s.
Proof. unfold lstrip, blanks. induction s as [|c s IH]; cbn; auto. destruct (is_space c); cbn; congruence. Qed.
Lemma blanks_blank s : blank (blanks s).
Proof. unfold blank, blanks. induction s as [|c s IH]; cbn; auto. destruct (is_space c) eqn:E; cbn; auto. now rewrite E. Qed.
Lemma starts_lstrip c s : starts_c c (lstrip s) = true -> exists w q, s = w ++ c :: q /\ blank w.
Proof.
  intros H. exists (blanks s). destruct (lstrip s) as [|d q] eqn:E; [discriminate|]. cbn in H. apply Ascii.eqb_eq in H as ->.
  exists q. rewrite <- E, <- split_blanks. split; auto. apply blanks_blank.
Qed.
Lemma trail_none s : upper_after_blanks (lstrip s) = false.
Proof. unfold upper_after_blanks. now rewrite blanks_lstrip. Qed.
Lemma skip_at (a b : str) n : n = length a -> skipn n (a ++ b) = b.
Proof. intros ->. rewrite skipn_app, skipn_all, Nat.sub_diag. reflexivity. Qed.
Lemma takewhile_dropwhile (f : ascii -> bool) (s : str) : takewhile f s ++ dropwhile f s = s.
Proof. induction s as [|c s IH]; cbn; auto. destruct (f c); cbn; congruence. Qed.
Lemma char_rejected t r' line : spells t (L "character") -> strip line = t ++ r' ->
  (forall p q, r' = p ++ ","%char :: q -> ~ In "("%char p -> ~ In ","%char p -> False) ->
  char_group (lstrip r') = None -> starts_c ":" (lstrip r') = false -> fchar_new line = Raise "ParseSyntaxError: character declaration".
Proof.
  intros H E NC G NS. unfold fchar_new. rewrite E. unfold oldchar_match, char_match. rewrite (after_ci_spells t _ r' H). rewrite G.
  assert (TR : chartrail (skipn (length t + length (blanks r')) (t ++ r')) = false).
  { rewrite (split_blanks r') at 2. rewrite app_assoc, skip_at by (now rewrite app_length). unfold chartrail. rewrite lstrip_idem, trail_none, NS.
    destruct (starts_c "," (lstrip r')) eqn:C; [|reflexivity]. exfalso. apply starts_lstrip in C as (w & q & C & W). apply (NC w q C); now apply (noin is_space). }
  destruct (lstrip r') as [|c r1] eqn:L1; [now rewrite TR|]. destruct (Ascii.eqb_spec c "*") as [->|]; [|now rewrite TR].
  destruct (takewhile is_digit (lstrip r1)) as [|d ds] eqn:D; [now rewrite TR|]. cbv zeta.
  set (r3 := dropwhile is_digit (lstrip r1)).
  assert (SP : r' = (blanks r' ++ L "*" ++ blanks r1 ++ (d :: ds) ++ blanks r3) ++ lstrip r3).
  { rewrite <- !app_assoc. rewrite <- (split_blanks r3). unfold r3. rewrite <- D. rewrite takewhile_dropwhile. rewrite <- split_blanks.
    change (L "*" ++ r1) with ("*"%char :: r1). rewrite <- L1. apply split_blanks. }
  assert (LN : length t + length (blanks r') + 1 + length (blanks r1) + length ((d :: ds) ++ blanks r3) = length (t ++ blanks r' ++ L "*" ++ blanks r1 ++ (d :: ds) ++ blanks r3)) by (rewrite !app_length; cbn [length L list_ascii_of_string]; lia).
  rewrite LN. assert (TE : t ++ r' = (t ++ blanks r' ++ L "*" ++ blanks r1 ++ (d :: ds) ++ blanks r3) ++ lstrip r3) by (rewrite <- (app_assoc t), <- SP; reflexivity).
  rewrite TE. rewrite skip_at by reflexivity. unfold oldchartrail. rewrite lstrip_idem, trail_none.
  destruct (starts_c "," (lstrip r3)) eqn:C; [|reflexivity]. exfalso. apply starts_lstrip in C as (w & q & C & W).
  assert (DD : forallb is_digit (d :: ds) = true) by (rewrite <- D; clear; induction (lstrip r1) as [|x l IH]; cbn; auto; destruct (is_digit x) eqn:X; cbn; auto; now rewrite X).
  apply (NC (blanks r' ++ L "*" ++ blanks r1 ++ (d :: ds) ++ w) q).
  - rewrite <- !app_assoc. rewrite <- C. unfold r3. rewrite <- D, takewhile_dropwhile, <- split_blanks. change (L "*" ++ r1) with ("*"%char :: r1). rewrite <- L1. apply split_blanks.
  - rewrite !in_app_iff. assert (X : forall v, blank v -> ~ In "("%char v) by (intros v V; now apply (noin is_space)). assert (Y : ~ In "("%char (d :: ds)) by now apply (noin is_digit).
    pose proof (X _ (blanks_blank r')). pose proof (X _ (blanks_blank r1)). pose proof (X _ W). cbn [L list_ascii_of_string In] in *. intuition discriminate.
  - rewrite !in_app_iff. assert (X : forall v, blank v -> ~ In ","%char v) by (intros v V; now apply (noin is_space)). assert (Y : ~ In ","%char (d :: ds)) by now apply (noin is_digit).
    pose proof (X _ (blanks_blank r')). pose proof (X _ (blanks_blank r1)). pose proof (X _ W). cbn [L list_ascii_of_string In] in *. intuition discriminate.
Qed.

(* a declaration of a character without a length in parentheses is accepted only if a
   colon comes next: attributes, old-style lengths and names without a double colon are not *)
Theorem C114_refuted : forall scheme logger w0 t w r c line,
  line = w0 ++ t ++ w ++ r ++ c -> blank w0 -> spells t (L "character") -> blank w -> comment c -> ~ In "!"%char r ->
  match r with [] => True | d :: _ => is_space d = false /\ d <> "("%char /\ d <> ":"%char end ->
  exists m, parse_fortran_var_decl scheme logger line = Raise m.
Proof.
  intros scheme logger w0 t w r c line -> W0 H W C NB R. unfold parse_fortran_var_decl.
  assert (BE : w0 ++ t ++ w ++ r ++ c = w0 ++ (t ++ w ++ r) ++ c) by now rewrite <- !app_assoc. rewrite BE. clear BE.
  destruct (bare w0 (t ++ w ++ r) c) as [B1 B2]; auto.
  { rewrite !in_app_iff. intros [X|[X|X]]; auto; revert X; [apply (noin is_alpha); [now apply (spells_alpha _ _ H)|reflexivity]|now apply (noin is_space)]. }
  rewrite B1. destruct (char_start t (w ++ r) H) as (r1 & S1 & z1 & Z1). rewrite S1 in *. rewrite factory_nobang by auto.
  destruct (cut_char t r1 H) as (r' & S' & (z & Z) & NC). rewrite (not_intrinsic t (L "character") r') by (auto; cbn; tauto). cbn [bind].
  assert (RE : w ++ r = r' ++ z ++ z1) by (rewrite Z1, Z; now rewrite <- app_assoc).
  assert (LS : lstrip r' = [] \/ exists d u, lstrip r' = d :: u /\ d <> "("%char /\ d <> ":"%char).
  { destruct (lstrip r') as [|d u] eqn:E; [now left|right; exists d, u; split; auto].
    assert (L2 : lstrip (w ++ r) = d :: u ++ z ++ z1).
    { rewrite RE, (split_blanks r'), <- app_assoc, lstrip_blank by apply blanks_blank. rewrite E. cbn [app]. apply lstrip_head.
      assert (X := blanks_lstrip r'). rewrite E in X. unfold blanks in X. cbn in X. now destruct (is_space d). }
    rewrite lstrip_blank in L2 by auto. destruct r as [|d' r0]; [discriminate|]. destruct R as (R1 & R2 & R3). rewrite lstrip_head in L2 by auto. injection L2 as -> _. auto. }
  rewrite (char_rejected t r'); auto.
  - cbn [bind]. eauto.
  - destruct LS as [->|(d & u & -> & D1 & D2)]; [reflexivity|]. cbn. destruct (Ascii.eqb_spec d "("); [easy|reflexivity].
  - destruct LS as [->|(d & u & -> & D1 & D2)]; [reflexivity|]. cbn. destruct (Ascii.eqb_spec d ":"); [easy|reflexivity].
Qed.
Print Assumptions C114_refuted.
Example C114_refuted_examples :
  parse_fortran_var_decl true false (L "character, intent(in) :: flag") = Raise "ParseSyntaxError: character declaration" /\
  parse_fortran_var_decl true false (L "character*7, intent(in) :: name ! old style") = Raise "ParseSyntaxError: character declaration" /\
  parse_fortran_var_decl true false (L "character*7 name") = Raise "ParseSyntaxError: character declaration" /\
  parse_fortran_var_decl true false (L "  CHARACTER flag") = Raise "ParseSyntaxError: character declaration".
Proof. vm_compute. auto. Qed.
(* nor is a length or kind with an underscore in it *)
Theorem C114_underscore_refuted : forall scheme logger w0 t w body r c line,
  line = w0 ++ t ++ w ++ L "(" ++ body ++ L ")" ++ r ++ c -> blank w0 -> spells t (L "character") -> blank w -> comment c ->
  ~ In "!"%char (body ++ r) -> ~ In ")"%char body -> In "_"%char body ->
  exists m, parse_fortran_var_decl scheme logger line = Raise m.
Proof.
  intros scheme logger w0 t w body r c line -> W0 H W C NB NP U. unfold parse_fortran_var_decl.
  assert (BE : w0 ++ t ++ w ++ L "(" ++ body ++ L ")" ++ r ++ c = w0 ++ (t ++ w ++ L "(" ++ body ++ L ")" ++ r) ++ c) by now rewrite <- !app_assoc. rewrite BE. clear BE.
  destruct (bare w0 (t ++ w ++ L "(" ++ body ++ L ")" ++ r) c) as [B1 B2]; auto.
  { rewrite in_app_iff in NB. rewrite !in_app_iff. intros [X|[X|[X|[X|[X|X]]]]]; try tauto; try (cbn in X; intuition discriminate); revert X; [apply (noin is_alpha); [now apply (spells_alpha _ _ H)|reflexivity]|now apply (noin is_space)]. }
  rewrite B1. destruct (char_start t (w ++ L "(" ++ body ++ L ")" ++ r) H) as (r1 & S1 & z1 & Z1). rewrite S1 in *. rewrite factory_nobang by auto.
  destruct (cut_char t r1 H) as (r' & S' & (z & Z) & NC). rewrite (not_intrinsic t (L "character") r') by (auto; cbn; tauto). cbn [bind].
  assert (RE : w ++ L "(" ++ body ++ L ")" ++ r = r' ++ z ++ z1) by (rewrite Z1, Z; now rewrite <- app_assoc).
  apply in_split in U as (b1 & b2 & U). subst body.
  assert (LS : lstrip r' = [] \/ exists u v, lstrip r' = "("%char :: u /\ u ++ v = b1 ++ "_"%char :: b2 ++ L ")" ++ r).
  { destruct (lstrip r') as [|d u] eqn:E; [now left|right].
    assert (L2 : lstrip (w ++ L "(" ++ (b1 ++ "_"%char :: b2) ++ L ")" ++ r) = d :: u ++ z ++ z1).
    { rewrite RE, (split_blanks r'), <- app_assoc, lstrip_blank by apply blanks_blank. rewrite E. cbn [app]. apply lstrip_head.
      assert (X := blanks_lstrip r'). rewrite E in X. unfold blanks in X. cbn in X. now destruct (is_space d). }
    rewrite lstrip_blank in L2 by auto. cbn [L list_ascii_of_string app] in L2. rewrite lstrip_head in L2 by reflexivity. injection L2 as <- L2. exists u, (z ++ z1). split; auto.
    rewrite <- L2. rewrite <- !app_assoc. reflexivity. }
  rewrite (char_rejected t r'); auto.
  - cbn [bind]. eauto.
  - destruct LS as [->|(u & v & -> & E)]; [reflexivity|]. cbn [char_group Ascii.eqb Bool.eqb].
    assert (NU : ~ In ")"%char (takewhile char_c u)).
    { rewrite in_app_iff in NP. cbn in NP. assert (N1 : ~ In ")"%char b1) by tauto. clear - E N1. revert b1 E N1. induction u as [|x u IH]; intros b1 E N1; cbn; [easy|].
      destruct b1 as [|y b1]; cbn in E; injection E as -> E; [easy|]. cbn. destruct (char_c y); [|easy]. intros [->|I]; [apply N1; now left|]. apply (IH b1) in I; auto. intros X. apply N1. now right. }
    assert (DW : forall s : str, ~ In ")"%char s -> dropwhile (fun d => negb (Ascii.eqb d ")")) s = []).
    { clear. induction s as [|x s IH]; intros N; cbn; auto. destruct (Ascii.eqb_spec x ")") as [->|]; [exfalso; apply N; now left|]. cbn. apply IH. intros I. apply N. now right. }
    rewrite DW; [reflexivity|]. now rewrite <- in_rev.
  - destruct LS as [->|(u & v & -> & E)]; reflexivity.
Qed.
Print Assumptions C114_underscore_refuted.
Example C114_underscore_example : parse_fortran_var_decl true false (L "character(len=max_len), intent(in) :: name") = Raise "ParseSyntaxError: character declaration".
Proof. vm_compute. reflexivity. Qed.
(* What is accepted: a length in parentheses (C113), or nothing between the word and the
   double colon. *)
Theorem C114_plain : forall scheme logger w0 t w1 w2 w3 el c, blank w0 -> spells t (L "character") -> blank w1 -> blank w2 -> blank w3 -> comment c ->
  (forall e, In e el -> ent_ok e) -> ~ In "!"%char (ents_text el) -> ~ within (L "::") (ents_text el) ->
  exists vs, parse_fortran_var_decl scheme logger (w0 ++ t ++ w1 ++ L "::" ++ w2 ++ ents_text el ++ w3 ++ c) = Ok vs /\
             Forall2 (says t (Some (L "len=1")) false [] None) el vs.
Proof.
  intros scheme logger w0 t w1 w2 w3 el c W0 H W1 W2 W3 C HE NB NE.
  assert (A := spells_alpha _ _ H eq_refl). assert (SO := spells_solid t _ H ltac:(easy) eq_refl).
  assert (FN : forall o (x y u v : str), blank x -> blank u -> is_space o = false -> x ++ ":"%char :: y = u ++ o :: v -> o = ":"%char /\ x = u /\ y = v).
  { clear. intros o x y. induction x as [|d x IH]; intros u v X U O E.
    - destruct u as [|f u]; [cbn in E; injection E as <- <-; auto|]. cbn in E; injection E as <- _. unfold blank in U. cbn in U. discriminate.
    - unfold blank in *. cbn in X. apply andb_true_iff in X as [D X]. destruct u as [|f u]; [injection E as -> _; congruence|]. injection E as -> E. cbn in U. apply andb_true_iff in U as [_ U].
      destruct (IH u v X U O E) as (-> & -> & ->). auto. }
  destruct (parse_decl_gen scheme logger t t (Some (L "len=1")) false [] el w0 w1 w2 w3 (L "::") c) as (n & E); auto.
  - intros a [].
  - cbn [attrs_text map List.concat app]. rewrite in_app_iff. intros [X|X]; auto. revert X. now apply (noin is_alpha).
  - cbn. intros (a & b & X). now destruct a.
  - intros w o u W O E NI. cbn [attrs_text map List.concat app] in E. cbn [L list_ascii_of_string app] in E.
    destruct (FN o w1 _ w u W1 W (proj1 (opener_facts o O)) E) as (-> & -> & <-). clear E. rewrite factory_nobang by auto.
    set (r0 := rstrip (":"%char :: w2 ++ ents_text el ++ w3)). destruct (cut_keeps (t ++ w) (":"%char :: r0)) as (k & KE & z & KZ).
    { rewrite in_app_iff. intros [X|X]; revert X; [now apply (noin is_alpha)|now apply (noin is_space)]. }
    { rewrite in_app_iff. intros [X|X]; revert X; [now apply (noin is_alpha)|now apply (noin is_space)]. }
    assert (KK : exists k', k = ":"%char :: k').
    { assert (Q1 : ~ In "("%char (t ++ w)) by (rewrite in_app_iff; intros [X|X]; revert X; [now apply (noin is_alpha)|now apply (noin is_space)]).
      assert (Q2 : ~ In ","%char (t ++ w)) by (rewrite in_app_iff; intros [X|X]; revert X; [now apply (noin is_alpha)|now apply (noin is_space)]).
      destruct (cut_plain (t ++ w) ":"%char r0 Q1 Q2 (or_intror (or_introl eq_refl))) as [[X _]|(t' & T')]; [discriminate X|].
      rewrite KE in T'. apply app_inv_head in T'. eauto. }
    destruct KK as (k' & ->). rewrite app_assoc. rewrite KE. rewrite <- app_assoc.
    assert (ST : strip (t ++ w ++ ":"%char :: k') = t ++ w ++ ":"%char :: rstrip k').
    { destruct SO as [(a & b & -> & AA) _]. cbn [app]. rewrite strip_from by auto. rewrite app_assoc, rstrip_after by reflexivity. now rewrite <- app_assoc. }
    rewrite (not_intrinsic t (L "character") (w ++ ":"%char :: rstrip k')) by (auto; cbn; tauto). cbn [bind]. unfold fchar_new, oldchar_match, char_match. rewrite ST.
    rewrite (after_ci_spells t _ _ H). destruct (blank_head w (":"%char :: rstrip k') W eq_refl) as [-> ->]. cbn [Ascii.eqb Bool.eqb char_group].
    rewrite app_assoc, skip_at by now rewrite app_length. cbn. exists (length t + length w). split; [reflexivity|]. lia.
  - cbn [attrs_text map List.concat app] in E. rewrite E. cbn [map scan_attrs bind fst snd]. eexists. split; [reflexivity|].
    apply (says_all t (Some (L "len=1")) false n [] el None). intros a [].
Qed.
Print Assumptions C114_plain.
Example C114_plain_example : parse_fortran_var_decl true false (L "Character :: flag(3), c ! x") =
  Ok [mkDV (L "flag") (L "Character") false (Some (L "len=1")) false false None (L "(3)"); mkDV (L "c") (L "Character") false (Some (L "len=1")) false false None (L "()")].
Proof. vm_compute. reflexivity. Qed.

(* ---- C115: definitions of derived types ---- *)
Lemma strip_word t r : solid t -> exists r', strip (t ++ r) = t ++ r' /\ exists z, r = r' ++ z.
Proof.
  intros [(c & u & E & C) (u' & c' & E' & C')]. destruct (blank_or_last r) as [B|(p & d & v & -> & D & V)].
  - exists []. rewrite strip_blank_r by auto. rewrite strip_solid by (split; eauto). rewrite app_nil_r. split; auto. now exists r.
  - exists (p ++ [d]). split; [|exists v; now rewrite <- app_assoc]. rewrite E. cbn [app]. rewrite strip_from by auto. rewrite app_assoc, rstrip_after, (rstrip_nil v V) by auto.
    now rewrite <- app_assoc.
Qed.
Lemma uncomment x c : ~ In "!"%char x -> comment c -> (if has_c "!" (x ++ c) then upto_c "!" (x ++ c) else x ++ c) = x.
Proof.
  intros N [->|(t & ->)]; [rewrite app_nil_r; apply has_c_not in N; now rewrite N|].
  assert (H : has_c "!" (x ++ L "!" ++ t) = true) by (apply has_c_in, in_app_iff; right; now left). rewrite H. now apply upto_at.
Qed.
Lemma no_colon_cut a x : ~ In ":"%char a -> cut_colons (a ++ L "::" ++ x) = Some (a, x).
Proof.
  intros N. apply cut_colons_at. intros (u & v & E). destruct v as [|v0 v1].
  - rewrite app_nil_r in E. change (L "::") with (L ":" ++ L ":") in E. rewrite app_assoc in E. apply app_inj_tail in E as [E _]. apply N. rewrite E. apply in_app_iff. right. now left.
  - destruct (@exists_last _ (v0 :: v1) ltac:(easy)) as (v' & z & EV). rewrite EV in E. rewrite !app_assoc in E. apply app_inj_tail in E as [E _]. apply N. rewrite E. rewrite !in_app_iff. left. right. now left.
Qed.
Lemma no_colon_none s : ~ In ":"%char s -> cut_colons s = None.
Proof. intros N. apply cut_colons_none. intros (u & v & ->). apply N. rewrite !in_app_iff. right. left. now left. Qed.
(* the name and the parameters *)
Lemma name_split (name g : str) params : identifier name -> blank g -> params_ok params ->
  match split_on "(" (name ++ params_text g params) with
  | a :: b :: _ => (strip a, Some ("("%char :: rstrip b))
  | _ => (name ++ params_text g params, None)
  end = (name, option_map (fun p => L "(" ++ p ++ L ")") params).
Proof.
  intros I G P. destruct (ident_word _ I) as [_ W]. assert (N : ~ In "("%char name) by now apply (noin is_word).
  destruct params as [p|]; cbn [params_text option_map].
  - destruct (P p eq_refl) as (P1 & _). rewrite app_assoc. change (L "(" ++ p ++ L ")") with ("("%char :: p ++ L ")"). rewrite split_cat.
    rewrite split_none; [|rewrite in_app_iff; intros [X|X]; auto; revert X; now apply (noin is_space)]. rewrite split_none; [|rewrite in_app_iff; intros [X|X]; [auto|cbn in X; intuition discriminate]].
    cbn [app]. rewrite strip_blank_r by auto. rewrite strip_solid by now apply ident_solid. change (L ")") with [")"%char]. now rewrite rstrip_end.
  - rewrite app_nil_r. now rewrite split_none.
Qed.
Lemma type_solid t : spells t (L "type") -> solid t /\ forallb is_alpha t = true.
Proof. intros H. split; [now apply (spells_solid t _ H)|now apply (spells_alpha _ _ H)]. Qed.
Lemma tail_solid name g params : identifier name -> solid (name ++ params_text g params).
Proof.
  intros I. destruct params as [p|]; cbn [params_text]; [|rewrite app_nil_r; now apply ident_solid].
  rewrite <- (app_nil_l (L "(" ++ p ++ L ")")). apply (solid_app _ _ (ident_solid _ I) (paren_solid p)).
Qed.
Lemma no_type_decl word t w o r : spells t word -> blank w -> is_space o = false -> o <> "("%char -> type_decl word false (t ++ w ++ o :: r) = None.
Proof.
  intros H W O N. unfold type_decl. rewrite (after_ci_spells t _ _ H). destruct (blank_head w (o :: r) W O) as [_ ->]. destruct (Ascii.eqb_spec o "("); [easy|reflexivity].
Qed.
Lemma first4 t x : spells t (L "type") -> str_eqb (firstn 4 (lower (t ++ x))) (L "type") = true.
Proof. intros H. rewrite lower_app. unfold spells in H. rewrite H. cbn [L list_ascii_of_string app firstn]. apply str_eqb_refl. Qed.
Theorem C115_definition : forall name attrs params line, type_definition name attrs params line ->
  type_def_line line = Ok (Some (name, Some (map strip attrs), option_map (fun p => L "(" ++ p ++ L ")") params)).
Proof.
  intros name attrs params line (w0 & t & w1 & w2 & g & w3 & c & -> & W0 & H & W1 & W2 & G & W3 & C & I & FA & P).
  destruct (type_solid t H) as [SO AL]. destruct (ident_word _ I) as [_ NW].
  set (A := List.concat (map (fun x => L "," ++ x) attrs)).
  assert (HDL : exists o r, A ++ L "::" ++ w2 ++ name ++ params_text g params ++ w3 ++ c = o :: r /\ is_space o = false /\ o <> "("%char).
  { unfold A. destruct attrs as [|x attrs]; cbn; eexists _, _; (split; [reflexivity|split; [reflexivity|discriminate]]). }
  destruct HDL as (o & r & HR & O & ON).
  assert (TM : type_match (w0 ++ t ++ w1 ++ A ++ L "::" ++ w2 ++ name ++ params_text g params ++ w3 ++ c) = None).
  { unfold type_match. rewrite HR. rewrite strip_blank_l by auto. destruct SO as [(y & z & -> & Y) _]. cbn [app]. rewrite strip_from by auto. rewrite app_assoc, rstrip_after by auto.
    rewrite <- app_assoc. change (y :: z ++ w1 ++ o :: rstrip r) with ((y :: z) ++ w1 ++ o :: rstrip r). now apply no_type_decl. }
  unfold type_def_line. rewrite TM. clear TM.
  assert (NA : forall x, In x attrs -> plain x) by now apply Forall_forall.
  assert (AC : forall d, (d = ":"%char \/ d = "!"%char) -> ~ In d A).
  { intros d D J. unfold A in J. apply in_concat in J as (y & Y & J). apply in_map_iff in Y as (x & <- & X). destruct (NA x X) as (_ & N1 & N2). cbn in J. destruct D as [->| ->]; destruct J as [J|J]; try discriminate; auto. }
  assert (PC : forall d, (d = ":"%char \/ d = "!"%char) -> ~ In d (params_text g params)).
  { intros d D. destruct params as [p|]; cbn [params_text]; [|easy]. destruct (P p eq_refl) as (_ & N1 & N2). rewrite !in_app_iff.
    intros [J|[J|[J|J]]]; [revert J; apply (noin is_space); auto; now destruct D as [->| ->]|..]; destruct D as [->| ->]; cbn in J; intuition discriminate. }
  assert (BL : forall d w, (d = ":"%char \/ d = "!"%char) -> blank w -> ~ In d w) by (intros d w D W; apply (noin is_space); auto; now destruct D as [->| ->]).
  assert (BT : forall d, (d = ":"%char \/ d = "!"%char) -> ~ In d t) by (intros d D; apply (noin is_alpha); auto; now destruct D as [->| ->]).
  assert (BN : forall d, (d = ":"%char \/ d = "!"%char) -> ~ In d name) by (intros d D; apply (noin is_word); auto; now destruct D as [->| ->]).
  set (X := w0 ++ t ++ w1 ++ A ++ L "::" ++ w2 ++ name ++ params_text g params ++ w3).
  assert (XE : w0 ++ t ++ w1 ++ A ++ L "::" ++ w2 ++ name ++ params_text g params ++ w3 ++ c = X ++ c) by (unfold X; now rewrite <- !app_assoc).
  rewrite XE, uncomment; auto.
  2:{ unfold X. rewrite !in_app_iff. pose proof (BL "!"%char w0). pose proof (BL "!"%char w1). pose proof (BL "!"%char w2). pose proof (BL "!"%char w3). pose proof (BT "!"%char). pose proof (BN "!"%char). pose proof (AC "!"%char). pose proof (PC "!"%char).
      cbn [L list_ascii_of_string In]. intuition discriminate. }
  assert (SX : strip X = (t ++ w1 ++ A) ++ L "::" ++ w2 ++ name ++ params_text g params).
  { unfold X. rewrite strip_blank_l by auto. rewrite (app_assoc w2), (app_assoc _ _ w3), (app_assoc (L "::")), (app_assoc A), (app_assoc w1), (app_assoc t). rewrite strip_blank_r by auto.
    rewrite <- !app_assoc. apply strip_solid. destruct (solid_app t (name ++ params_text g params) SO (tail_solid name g params I) (w1 ++ A ++ L "::" ++ w2)) as [S1 S2]. rewrite <- !app_assoc in S1, S2. split; auto. }
  rewrite SX. rewrite <- app_assoc at 1. rewrite first4 by auto.
  rewrite no_colon_cut by (rewrite !in_app_iff; intros [J|[J|J]]; revert J; [apply BT|apply BL|apply AC]; auto).
  assert (N2 : ~ In ":"%char (w2 ++ name ++ params_text g params)) by (rewrite !in_app_iff; intros [J|[J|J]]; revert J; [apply BL|apply BN|apply PC]; auto).
  unfold second. rewrite (no_colon_none _ N2). rewrite strip_blank_l by auto. rewrite strip_solid by now apply tail_solid. cbn [bind].
  assert (PR : tl (split_on "," (t ++ w1 ++ A)) = attrs).
  { assert (J : t ++ w1 ++ A = join (L ",") ((t ++ w1) :: attrs)).
    { unfold A. rewrite app_assoc. generalize (t ++ w1). clear. intros h. revert h. induction attrs as [|x l IH]; intros h; [cbn; now rewrite app_nil_r|]. rewrite join_cons2. cbn [map List.concat]. rewrite <- (app_assoc (L ",")). f_equal. f_equal. apply IH. }
    rewrite J. change (L ",") with [","%char]. rewrite split_join; [reflexivity|easy|]. intros p [<-|K]; [|now destruct (NA p K)].
    rewrite in_app_iff. intros [K|K]; revert K; [now apply (noin is_alpha)|now apply (noin is_space)]. }
  rewrite PR. pose proof (name_split name g params I G P) as NS.
  destruct (split_on "(" (name ++ params_text g params)) as [|a [|b l]]; (assert (E1 := f_equal fst NS); assert (E2 := f_equal snd NS); cbn [fst snd] in E1, E2; now rewrite E1, <- E2).
Qed.
Print Assumptions C115_definition.
Example C115_example : type_definition (L "vec_t") [L " extends(base)"; L " public "] (Some (L "k, n")) (L "  TYPE, extends(base), public :: vec_t (k, n) ! a vector") /\
  type_def_line (L "  TYPE, extends(base), public :: vec_t (k, n) ! a vector") = Ok (Some (L "vec_t", Some [L "extends(base)"; L "public"], Some (L "(k, n)"))).
Proof.
  split; [|vm_compute; reflexivity]. exists (L "  "), (L "TYPE"), [], (L " "), (L " "), (L " "), (L "! a vector"). split; [reflexivity|]. do 6 (split; [reflexivity|]).
  split; [right; eexists; reflexivity|]. split; [eexists _, _; split; [reflexivity|split; reflexivity]|].
  split; [repeat constructor; cbn; intuition discriminate|]. intros p [= <-]. cbn. intuition discriminate.
Qed.
Theorem C115_short_definition : forall name params line, short_definition name params line ->
  type_def_line line = Ok (Some (name, None, option_map (fun p => L "(" ++ p ++ L ")") params)).
Proof.
  intros name params line (w0 & t & w1 & g & w3 & c & -> & W0 & H & W1 & SP & G & W3 & C & I & P).
  destruct (type_solid t H) as [SO AL]. destruct (ident_word _ I) as [_ NW]. assert (NI := I). destruct NI as (o & n' & NE & OA & _).
  assert (TM : type_match (w0 ++ t ++ w1 ++ name ++ params_text g params ++ w3 ++ c) = None).
  { unfold type_match. rewrite NE. rewrite strip_blank_l by auto. destruct SO as [(y & z & -> & Y) _]. cbn [app]. rewrite strip_from by auto. rewrite app_assoc, rstrip_after by now apply alpha_not_space.
    rewrite <- app_assoc. match goal with |- type_decl _ _ (y :: z ++ w1 ++ o :: ?r) = _ => change (y :: z ++ w1 ++ o :: r) with ((y :: z) ++ w1 ++ o :: r) end.
    apply no_type_decl; auto; [now apply alpha_not_space|]. intros ->. discriminate. }
  unfold type_def_line. rewrite TM. clear TM.
  assert (PC : forall d, (d = ":"%char \/ d = "!"%char) -> ~ In d (params_text g params)).
  { intros d D. destruct params as [p|]; cbn [params_text]; [|easy]. destruct (P p eq_refl) as (_ & N1 & N2). rewrite !in_app_iff.
    intros [J|[J|[J|J]]]; [revert J; apply (noin is_space); auto; now destruct D as [->| ->]|..]; destruct D as [->| ->]; cbn in J; intuition discriminate. }
  assert (BL : forall d w, (d = ":"%char \/ d = "!"%char) -> blank w -> ~ In d w) by (intros d w D W; apply (noin is_space); auto; now destruct D as [->| ->]).
  assert (BT : forall d, (d = ":"%char \/ d = "!"%char) -> ~ In d t) by (intros d D; apply (noin is_alpha); auto; now destruct D as [->| ->]).
  assert (BN : forall d, (d = ":"%char \/ d = "!"%char) -> ~ In d name) by (intros d D; apply (noin is_word); auto; now destruct D as [->| ->]).
  set (X := w0 ++ t ++ w1 ++ name ++ params_text g params ++ w3).
  assert (XE : w0 ++ t ++ w1 ++ name ++ params_text g params ++ w3 ++ c = X ++ c) by (unfold X; now rewrite <- !app_assoc).
  rewrite XE, uncomment; auto.
  2:{ unfold X. rewrite !in_app_iff. pose proof (BL "!"%char w0). pose proof (BL "!"%char w1). pose proof (BL "!"%char w3). pose proof (BT "!"%char). pose proof (BN "!"%char). pose proof (PC "!"%char). tauto. }
  assert (SX : strip X = t ++ w1 ++ name ++ params_text g params).
  { unfold X. rewrite strip_blank_l by auto. rewrite (app_assoc name), (app_assoc w1), (app_assoc t). rewrite strip_blank_r by auto.
    apply strip_solid. now apply (solid_app t (name ++ params_text g params) SO (tail_solid name g params I) w1). }
  rewrite SX. rewrite first4 by auto.
  assert (N2 : ~ In ":"%char (t ++ w1 ++ name ++ params_text g params)) by (rewrite !in_app_iff; intros [J|[J|[J|J]]]; revert J; [apply BT|apply BL|apply BN|apply PC]; auto).
  rewrite (no_colon_none _ N2). assert (HS : has_c " " (t ++ w1 ++ name ++ params_text g params) = true) by (apply has_c_in; rewrite !in_app_iff; tauto). rewrite HS. clear HS.
  assert (FS : exists b, blank b /\ tl (dropwhile (fun d => negb (Ascii.eqb d " ")) (t ++ w1 ++ name ++ params_text g params)) = b ++ name ++ params_text g params).
  { assert (D1 : dropwhile (fun d => negb (Ascii.eqb d " ")) (t ++ w1 ++ name ++ params_text g params) = dropwhile (fun d => negb (Ascii.eqb d " ")) (w1 ++ name ++ params_text g params)).
    { clear - AL. induction t as [|x t IH]; auto. cbn in *. apply andb_true_iff in AL as [X AL]. destruct (Ascii.eqb_spec x " ") as [->|]; [discriminate|]. cbn. auto. }
    rewrite D1. clear - W1 SP. unfold blank in *. induction w1 as [|x w IH]; [easy|]. cbn in *. apply andb_true_iff in W1 as [X W1].
    destruct (Ascii.eqb_spec x " ") as [->|N]; cbn; [eauto|]. destruct SP as [->|SP]; [easy|]. auto. }
  destruct FS as (b & B & ->). cbn [bind]. rewrite strip_blank_l by auto. rewrite strip_solid by now apply tail_solid.
  pose proof (name_split name g params I G P) as NS.
  destruct (split_on "(" (name ++ params_text g params)) as [|a [|b' l]]; (assert (E1 := f_equal fst NS); assert (E2 := f_equal snd NS); cbn [fst snd] in E1, E2; now rewrite E1, <- E2).
Qed.
Print Assumptions C115_short_definition.
Example C115_short_example : short_definition (L "vec_t") None (L " type  vec_t! a") /\ type_def_line (L " type  vec_t! a") = Ok (Some (L "vec_t", None, None)).
Proof.
  split; [|vm_compute; reflexivity]. exists (L " "), (L "type"), (L "  "), [], [], (L "! a"). split; [reflexivity|]. do 3 (split; [reflexivity|]). split; [now left|]. do 2 (split; [reflexivity|]).
  split; [right; eexists; reflexivity|]. split; [eexists _, _; split; [reflexivity|split; reflexivity]|]. discriminate.
Qed.





(* Whatever begins with type( and a name is a declaration, not a definition. *)
Theorem C115_declarations_are_not_definitions : forall w0 t w a n r line, line = w0 ++ t ++ w ++ L "(" ++ a ++ n ++ r ->
  blank w0 -> spells t (L "type") -> blank w -> blank a -> identifier n -> type_def_line line = Ok None.
Proof.
  intros w0 t w a n r line -> W0 H W A I. destruct (type_solid t H) as [SO AL]. assert (NI := I). destruct NI as (o & n' & NE & OA & ON). assert (OS := alpha_not_space o OA).
  assert (TM : exists x, type_match (w0 ++ t ++ w ++ L "(" ++ a ++ n ++ r) = Some x).
  { unfold type_match. rewrite strip_blank_l by auto. rewrite NE. destruct SO as [(y & z & -> & Y) _]. cbn [app]. rewrite strip_from by auto.
    cbn [L list_ascii_of_string app]. rewrite app_assoc, rstrip_after by reflexivity. change (a ++ o :: n' ++ r) with (a ++ [] ++ o :: n' ++ r). rewrite app_assoc, app_nil_r, rstrip_after by auto. rewrite <- app_assoc.
    match goal with |- context [type_decl _ _ (y :: z ++ w ++ "("%char :: a ++ o :: ?q)] => change (y :: z ++ w ++ "("%char :: a ++ o :: q) with ((y :: z) ++ w ++ "("%char :: a ++ o :: q); set (Q := q) end.
    unfold type_decl. rewrite (after_ci_spells _ _ _ H). destruct (blank_head w ("("%char :: a ++ o :: Q) W eq_refl) as [_ ->]. cbn [Ascii.eqb Bool.eqb].
    destruct (blank_head a (o :: Q) A OS) as [_ ->]. rewrite OA. destruct (starts_c ")" (lstrip (dropwhile is_word (o :: Q)))); eauto. }
  destruct TM as (x & TM). unfold type_def_line. now rewrite TM.
Qed.
Print Assumptions C115_declarations_are_not_definitions.
Example C115_declaration_example : type_def_line (L "type (vec_t), intent(in) :: v") = Ok None. Proof. vm_compute. reflexivity. Qed.
(* Nor is anything that does not begin with the word. *)
Theorem C115_other_statements : forall line, ~ begins (L "type") line -> type_def_line line = Ok None.
Proof.
  intros line N. unfold type_def_line. destruct (type_match line); [reflexivity|].
  set (b0 := if has_c "!" line then upto_c "!" line else line). set (s := strip b0).
  destruct (str_eqb (firstn 4 (lower s)) (L "type")) eqn:E; [|reflexivity]. exfalso. apply N. apply str_eqb_eq in E.
  assert (P : exists u, line = b0 ++ u).
  { unfold b0. destruct (has_c "!" line); [|exists []; now rewrite app_nil_r]. exists (dropwhile (fun d => negb (Ascii.eqb d "!")) line). unfold upto_c. symmetry. apply takewhile_dropwhile. }
  destruct P as (u & P). destruct (strip_split b0) as (a & b & A & B & S). fold s in S. rewrite S in P.
  exists a, (firstn 4 s), (skipn 4 s ++ b ++ u). split; [|split; auto].
  - rewrite P at 1. rewrite <- !app_assoc. rewrite (app_assoc (firstn 4 s)), firstn_skipn. reflexivity.
  - unfold spells. rewrite <- E. unfold lower. now rewrite firstn_map.
Qed.
Print Assumptions C115_other_statements.
Lemma not_begins w line : w <> [] -> forallb is_alpha w = true -> after_ci w (lstrip line) = None -> ~ begins w line.
Proof.
  intros NW A N (a & t & r & -> & B & H). rewrite lstrip_blank in N by auto. destruct (spells_solid t w H NW A) as [(c & u & -> & C) _]. cbn [app] in N. rewrite lstrip_head in N by auto.
  change (c :: u ++ r) with ((c :: u) ++ r) in N. rewrite (after_ci_spells _ _ _ H) in N. discriminate.
Qed.
Example C115_other_example : ~ begins (L "type") (L "  end type vec_t") /\ type_def_line (L "  end type vec_t") = Ok None.
Proof.
  assert (X : ~ begins (L "type") (L "  end type vec_t")) by (apply not_begins; [easy|reflexivity|reflexivity]). split; [exact X|now apply C115_other_statements].
Qed.
(* But any statement whose first word merely begins with these four letters, and that has a
   blank in it, is taken for a definition; without a blank there is an error. *)
Theorem C115_refuted : forall t x e, spells t (L "type") -> x <> [] -> forallb is_word x = true -> e <> [] -> forallb is_word e = true ->
  type_def_line (t ++ x ++ L " = " ++ e) = Ok (Some (L "= " ++ e, None, None)) /\ type_def_line (t ++ x ++ L "=" ++ e) = Raise "IndexError".
Proof.
  intros t x e H X WX NE WE. destruct (type_solid t H) as [SO AL].
  assert (FX : exists o x', x = o :: x' /\ is_word o = true) by (destruct x as [|o x']; [easy|cbn in WX; apply andb_true_iff in WX as [? _]; eauto]). destruct FX as (o & x' & -> & O).
  assert (SE := solid_word e NE WE). assert (OS := word_not_space o O). assert (OP : o <> "("%char) by (intros ->; discriminate).
  assert (G : forall m, (m = L " = " \/ m = L "=") ->
    strip (t ++ (o :: x') ++ m ++ e) = t ++ (o :: x') ++ m ++ e /\ type_match (t ++ (o :: x') ++ m ++ e) = None /\ has_c "!" (t ++ (o :: x') ++ m ++ e) = false /\ cut_colons (t ++ (o :: x') ++ m ++ e) = None).
  { intros m M. assert (ST : strip (t ++ (o :: x') ++ m ++ e) = t ++ (o :: x') ++ m ++ e) by (apply strip_solid; rewrite (app_assoc (o :: x')); now apply (solid_app t e SO SE)).
    assert (IN : forall d, (d = ":"%char \/ d = "!"%char) -> ~ In d (t ++ (o :: x') ++ m ++ e)).
    { intros d D. assert (DW : is_word d = false /\ is_alpha d = false /\ ~ In d m) by (destruct D as [->| ->], M as [->| ->]; cbn; intuition discriminate). destruct DW as (D1 & D2 & D3).
      rewrite !in_app_iff. intros [J|[J|[J|J]]]; [revert J; now apply (noin is_alpha)|revert J; now apply (noin is_word)|auto|revert J; now apply (noin is_word)]. }
    split; auto. split; [|split; [apply has_c_not, IN; auto|apply no_colon_none, IN; auto]].
    unfold type_match. rewrite ST. apply (no_type_decl (L "type") t [] o (x' ++ m ++ e)); auto; reflexivity. }
  assert (NS : ~ In " "%char (t ++ o :: x')) by (rewrite in_app_iff; intros [J|J]; revert J; [now apply (noin is_alpha)|now apply (noin is_word)]).
  assert (NP : ~ In "("%char e) by now apply (noin is_word).
  split; unfold type_def_line.
  - destruct (G (L " = ") (or_introl eq_refl)) as (S1 & S2 & S3 & S4). rewrite S2, S3, S1. rewrite first4 by auto. rewrite S4.
    assert (HS : has_c " " (t ++ (o :: x') ++ L " = " ++ e) = true) by (apply has_c_in; rewrite !in_app_iff; right; right; left; now left). rewrite HS.
    assert (DW : dropwhile (fun d => negb (Ascii.eqb d " ")) (t ++ (o :: x') ++ L " = " ++ e) = L " = " ++ e).
    { rewrite app_assoc. revert NS. generalize (t ++ o :: x'). clear. intros l. induction l as [|y l IH]; intros NS; [reflexivity|]. cbn [app dropwhile]. destruct (Ascii.eqb_spec y " ") as [->|]; [exfalso; apply NS; now left|].
      cbn [negb]. apply IH. intros I. apply NS. now right. }
    rewrite DW. cbn [L list_ascii_of_string app tl bind]. assert (SX : strip ("="%char :: " "%char :: e) = "="%char :: " "%char :: e).
    { apply strip_solid. destruct SE as [_ (e' & z & -> & Z)]. apply (solid_two "="%char z (" "%char :: e')); auto. }
    rewrite SX. rewrite split_none; [reflexivity|]. intros [J|[J|J]]; auto; discriminate.
  - destruct (G (L "=") (or_intror eq_refl)) as (S1 & S2 & S3 & S4). rewrite S2, S3, S1. rewrite first4 by auto. rewrite S4.
    assert (HS : has_c " " (t ++ (o :: x') ++ L "=" ++ e) = false).
    { apply has_c_not. rewrite app_assoc, !in_app_iff. rewrite in_app_iff in NS. intros [J|[J|J]]; [auto|cbn in J; intuition discriminate|revert J; now apply (noin is_word)]. }
    now rewrite HS.
Qed.
Print Assumptions C115_refuted.
Example C115_refuted_example : type_def_line (L "typename = n") = Ok (Some (L "= n", None, None)) /\ type_def_line (L "typename=n") = Raise "IndexError" /\
  type_def_line (L "type is (integer)") = Ok (Some (L "is", None, Some (L "(integer)"))).
Proof. vm_compute. auto. Qed.

(* ---- C116: statements that declare nothing ---- *)
Definition type_words : list str := map L ["integer"; "real"; "logical"; "double"; "complex"; "character"]%string.
Lemma prefix_begin line : forall w u z word t r, line = w ++ u ++ z -> blank w -> u = t ++ r -> spells t word -> begins word line.
Proof. intros w u z word t r -> W -> H. exists w, t, (r ++ z). rewrite <- !app_assoc. auto. Qed.
Theorem C116_no_declaration : forall scheme logger line, (forall w, In w type_words -> ~ begins w line) ->
  ~ begins_paren (L "type") line -> ~ begins_paren (L "class") line -> parse_fortran_var_decl scheme logger line = Ok [].
Proof.
  intros scheme logger line HW HT HC. unfold parse_fortran_var_decl.
  set (s := if has_c "!" (strip line) then rstrip (upto_c "!" (strip line)) else strip line).
  assert (PS : exists a z, line = a ++ s ++ z /\ blank a).
  { destruct (strip_split line) as (a & b & A & B & E). unfold s. destruct (has_c "!" (strip line)); [|eauto].
    set (q := upto_c "!" (strip line)). assert (Q : exists v, strip line = rstrip q ++ v).
    { assert (Q2 : strip line = q ++ dropwhile (fun d => negb (Ascii.eqb d "!")) (strip line)) by (symmetry; apply takewhile_dropwhile).
      destruct (blank_or_last q) as [QB|(p & d & v & QE & D & V)]; [rewrite (rstrip_nil q QB); now exists (strip line)|].
      rewrite QE. rewrite (rstrip_after p d v D), (rstrip_nil v V). rewrite QE in Q2. exists (v ++ dropwhile (fun d0 => negb (Ascii.eqb d0 "!")) (strip line)).
      etransitivity; [exact Q2|]. rewrite <- !app_assoc. reflexivity. }
    destruct Q as (v & Q). exists a, (v ++ b). split; auto. etransitivity; [exact E|]. rewrite Q at 1. now rewrite <- !app_assoc. }
  assert (NB : ~ In "!"%char s).
  { unfold s. destruct (has_c "!" (strip line)) eqn:E; [|now apply has_c_not in E]. intros I. apply rstrip_in in I. unfold upto_c in I. clear - I. induction (strip line) as [|c l IH]; [easy|]. cbn in I.
    destruct (Ascii.eqb_spec c "!") as [->|N]; [easy|]. destruct I as [I|I]; auto. }
  destruct PS as (a & z & LE & A). rewrite factory_nobang by auto.
  set (u := strip (cut_line s)). assert (PU : exists a' z', line = a' ++ u ++ z' /\ blank a').
  { destruct (cut_prefix s) as (q & Q). destruct (strip_split (cut_line s)) as (b & v & B & V & E). fold u in E.
    exists (a ++ b), (v ++ q ++ z). split; [|unfold blank in *; rewrite forallb_app, A; exact B]. rewrite LE, Q, E at 1. rewrite <- !app_assoc. reflexivity. }
  destruct PU as (a' & z' & UE & A'). clear NB LE.
  assert (NO : forall w, In w type_words -> after_ci w u = None).
  { intros w I. destruct (after_ci w u) as [[t r]|] eqn:E; [|reflexivity]. exfalso. apply after_ci_some in E as [E1 E2]. apply (HW w I). now apply (prefix_begin line a' u z' w t r). }
  assert (ND : forall w m, ~ begins_paren w line -> type_decl w m u = None).
  { intros w m N. unfold type_decl. destruct (after_ci w u) as [[t r]|] eqn:E; [|reflexivity]. apply after_ci_some in E as [E1 E2]. destruct (lstrip r) as [|c r1] eqn:R; [reflexivity|].
    destruct (Ascii.eqb_spec c "(") as [->|]; [|reflexivity]. exfalso. apply N. exists a', t, (blanks r), (r1 ++ z'). split; [|split; auto; split; auto; apply blanks_blank].
    rewrite UE, E1. rewrite <- !app_assoc. cbn [L list_ascii_of_string app]. rewrite (split_blanks r) at 1. rewrite R. rewrite <- !app_assoc. reflexivity. }
  assert (FN : ftype_new (cut_line s) = Ok None).
  { unfold ftype_new, itype_match, intrinsic_match, dp_match. fold u. now rewrite !NO by (cbn; tauto). }
  assert (CN : fchar_new (cut_line s) = Ok None).
  { unfold fchar_new, oldchar_match, char_match. fold u. now rewrite !NO by (cbn; tauto). }
  rewrite FN. cbn [bind]. rewrite CN. cbn [bind]. unfold type_match, class_match. fold u. rewrite !ND by auto. reflexivity.
Qed.
Print Assumptions C116_no_declaration.
Example C116_example : (forall w, In w type_words -> ~ begins w (L "type, extends(base) :: vec_t")) /\ ~ begins_paren (L "class") (L "type, extends(base) :: vec_t") /\
  parse_fortran_var_decl true false (L "  save ! integer x") = Ok [] /\ parse_fortran_var_decl true false (L "type, extends(base) :: vec_t") = Ok [] /\
  ~ begins_paren (L "type") (L "type, extends(base) :: vec_t").
Proof.
  split; [intros w [<-|[<-|[<-|[<-|[<-|[<-|[]]]]]]]; (apply not_begins; [easy|reflexivity|vm_compute; reflexivity])|].
  split; [intros (w & t & v & r & E & W & H & V); assert (X : begins (L "class") (L "type, extends(base) :: vec_t")) by (exists w, t, (v ++ L "(" ++ r); auto); revert X; apply not_begins; [easy|reflexivity|reflexivity]|].
  split; [vm_compute; reflexivity|]. split; [vm_compute; reflexivity|]. intros (w & t & v & r & E & W & H & V).
  assert (LT : length t = 4) by (unfold spells in H; apply (f_equal (@length ascii)) in H; rewrite lower_len in H; exact H).
  destruct t as [|t0 [|t1 [|t2 [|t3 [|]]]]]; try discriminate. unfold blank, spells in *. destruct w as [|a w]; [|injection E as <- _; discriminate].
  cbn [app] in E. injection E as _ _ _ _ E. destruct v as [|b v]; [discriminate|]. injection E as <- _. discriminate.
Qed.
(* But the type need not be a word of its own: an assignment to a variable whose name begins
   with the name of a type declares a variable. *)
Theorem C116_refuted : forall scheme logger t n i, intrinsic_name t -> identifier n -> i <> [] -> forallb is_word i = true ->
  exists v, parse_fortran_var_decl scheme logger (t ++ n ++ L " = " ++ i) = Ok [v] /\ dv_name v = n /\ dv_type v = t.
Proof.
  intros scheme logger t n i T N NI WI. destruct (ident_word _ N) as [_ NW].
  set (e := mkEnt [] n [] None (L " ") (Some (L " " ++ i))).
  destruct (parse_decl_gen scheme logger t t None false [] [e] [] [] [] [] [] []) as (k & E); try reflexivity.
  - now apply intrinsic_solid.
  - now left.
  - right. easy.
  - intros a [].
  - intros e' [<-|[]]. unfold e, ent_ok. cbn [e_before e_gap e_after e_name e_dims e_init]. do 3 (split; [reflexivity|]). split; auto. split; [discriminate|]. intros x [= <-]. split.
    + apply one_plain; (intros [X|X]; [discriminate|revert X; now apply (noin is_word)]).
    + intros [X|X]; [discriminate|revert X; now apply (noin is_word)].
  - cbn [attrs_text map List.concat app ents_text join ent_text e e_before e_gap e_after e_name e_dims e_init]. rewrite !in_app_iff. cbn [In L list_ascii_of_string app]. intros X.
    repeat match type of X with _ \/ _ => destruct X as [X|X] end; try discriminate X; try easy; revert X; first [now apply (noin is_word)|apply (noin type_c); [now apply intrinsic_chars|reflexivity]].
  - cbn. intros (a & b & X). now destruct a.
  - cbn [ents_text map join ent_text e e_before e_gap e_after e_name e_dims e_init app]. intros (a & b & X).
    assert (J : In ":"%char (n ++ L " " ++ L "=" ++ L " " ++ i)) by (cbn [app] in *; rewrite X; rewrite !in_app_iff; right; left; now left).
    rewrite !in_app_iff in J. destruct J as [J|[J|[J|[J|J]]]]; try (cbn in J; intuition discriminate); revert J; now apply (noin is_word).
  - intros w o u W O _ NB. destruct (head_ok t t None false (h_plain t T) w o (rstrip u) W O NB) as (k & F & K1 & K2). eauto.
  - cbn [ents_text map join ent_text e e_before e_gap e_after e_name e_dims e_init app attrs_text List.concat scan_attrs bind fst snd] in E. rewrite !app_nil_r in E.
    exists (make_var (mkFT t None false k) [] None None n (own e)). split; [exact E|]. split; reflexivity.
Qed.
Print Assumptions C116_refuted.
Example C116_refuted_example : parse_fortran_var_decl true false (L "realtime = 5") =
  Ok [mkDV (L "time") (L "real") false None false false None (L "()")].
Proof. vm_compute. reflexivity. Qed.

(* ---- C117: initial values ---- *)
(* Neither initial values nor blanks nor comments matter: two declarations with the same
   type, attributes, names and dimensions give the same variables. *)
Theorem C117_initial_values : forall scheme logger h T K ddt al el el' line line', head h T K ddt ->
  declaration h al el line -> declaration h al el' line' ->
  map e_name el = map e_name el' -> map e_dims el = map e_dims el' ->
  parse_fortran_var_decl scheme logger line = parse_fortran_var_decl scheme logger line'.
Proof.
  intros scheme logger h T K ddt al el el' line line' HD D D' N M. destruct (parse_decl scheme logger h T K ddt al el line HD D) as (n & ->). destruct (parse_decl scheme logger h T K ddt al el' line' HD D') as (n' & ->).
  destruct (scan_attrs scheme logger (map (fun a => lower (core a)) al) None None) as [id|m]; [|reflexivity]. cbn [bind]. f_equal. clear - N M.
  revert el' N M. induction el as [|e el IH]; intros [|e' el'] N M; try discriminate; [reflexivity|]. cbn [map] in *. injection N as N1 N2. injection M as M1 M2. rewrite (IH el' N2 M2). f_equal.
  unfold own. now rewrite N1, M1.
Qed.
Print Assumptions C117_initial_values.
Fixpoint one_chk (k : Z) (s : str) : bool :=
  match s with
  | [] => Z.eqb k 0
  | c :: t => negb (Ascii.eqb c "," && Z.eqb k 0) && one_chk (k + (if Ascii.eqb c "(" then 1 else if Ascii.eqb c ")" then -1 else 0))%Z t
  end.
Lemma one_chk_gen s : forall k, one_chk k s = true -> (k + paren_sum s = 0)%Z /\ forall p q, s = p ++ ","%char :: q -> (k + paren_sum p <> 0)%Z.
Proof.
  induction s as [|c s IH]; intros k H; cbn [one_chk paren_sum] in *.
  - apply Z.eqb_eq in H. split; [lia|]. intros p q E. now destruct p.
  - apply andb_true_iff in H as [N H]. destruct (IH _ H) as [Z P]. split; [lia|]. intros p q E. destruct p as [|d p].
    + cbn [app] in E. injection E as -> ->. cbn in N. cbn [paren_sum]. destruct (Z.eqb_spec k 0); [discriminate|lia].
    + cbn [app] in E. injection E as -> E. apply P in E. cbn [paren_sum]. lia.
Qed.
Lemma one_chk_spec s : one_chk 0 s = true -> one_item s.
Proof. intros H. apply one_chk_gen in H as [Z P]. split; [lia|]. intros p q E. apply P in E. lia. Qed.
Example C117_example : exists el line, head (L "INTEGER") (L "INTEGER") None false /\ declaration (L "INTEGER") [] el line /\
  line = L "INTEGER :: n = max(3, k), m(2) = f(1)" /\ parse_fortran_var_decl true false line = parse_fortran_var_decl true false (L "  INTEGER ::  n,m(2) ! sizes").
Proof.
  exists [mkEnt [] (L "n") [] None (L " ") (Some (L " max(3, k)")); mkEnt (L " ") (L "m") [] (Some (L "2")) (L " ") (Some (L " f(1)"))], (L "INTEGER :: n = max(3, k), m(2) = f(1)").
  split; [constructor; now left|]. split; [|split; [reflexivity|vm_compute; reflexivity]].
  exists [], (L " "), (L " "), [], (L "::"), []. split; [reflexivity|]. do 4 (split; [reflexivity|]). split; [now left|]. split; [now left|]. split; [intros a []|]. split.
  { intros e [<-|[<-|[]]]; (do 3 (split; [reflexivity|]); split; [eexists _, _; split; [reflexivity|split; reflexivity]|]).
    - split; [discriminate|]. intros i [= <-]. split; [now apply one_chk_spec|cbn; intuition discriminate].
    - split; [intros d [= <-]; split; [now apply balanced_by|cbn; intuition discriminate]|]. intros i [= <-]. split; [now apply one_chk_spec|cbn; intuition discriminate]. }
  split; [cbn; intuition discriminate|]. split; apply no_colons_by; reflexivity.
Qed.
(* But a value that holds an equals sign, a comma outside parentheses, a bracket or a double
   colon, as constants of other kinds do, changes or loses variables. *)
Theorem C117_refuted : exists a b c d e,
  a = L "logical :: f = (n >= 3)" /\ (exists m, parse_fortran_var_decl true false a = Raise m) /\
  b = L "integer :: v(2) = [1, 2]" /\ (exists x y, parse_fortran_var_decl true false b = Ok [x; y] /\ dv_name y = L "2]") /\
  c = L "real :: x(2) = [real :: 1, 2], y" /\ (exists x, parse_fortran_var_decl true false c = Ok [x]) /\
  d = L "character(len=3) :: s = 'a,b', t" /\ (exists x y z, parse_fortran_var_decl true false d = Ok [x; y; z] /\ dv_name y = L "b'") /\
  e = L "character(len=3) :: s = '!', t" /\ (exists x, parse_fortran_var_decl true false e = Ok [x]).
Proof. do 5 eexists. repeat (split; [reflexivity|]; split; [do 4 (try eexists); vm_compute; try split; reflexivity|]). split; [reflexivity|]. eexists. vm_compute. reflexivity. Qed.
Print Assumptions C117_refuted.
