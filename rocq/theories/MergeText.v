(* MergeText.v: the text of a merged statement. *)
From Verif Require Import Base PyStr LineModel LineSpec LineProofs CheckProofs PreprocModel ScanModel ScanSpec ScanProofs MergeProofs.
Open Scope nat_scope.
Open Scope list_scope.

(* [u] read from [x] ends in [x'] and holds no ampersand in code *)
Definition flows (x : ctx) (u : str) (x' : ctx) : Prop :=
  fold_left ctx_step u x = x' /\ forall p, nth_error u p = Some "&"%char -> ctx_before x u p <> Code.
Lemma before_app x a b p : ctx_before x (a ++ b) (length a + p) = ctx_before (fold_left ctx_step a x) b p.
Proof. unfold ctx_before. rewrite firstn_app_2, fold_left_app. reflexivity. Qed.
Lemma before_app1 x a b p : p <= length a -> ctx_before x (a ++ b) p = ctx_before x a p.
Proof. intros H. unfold ctx_before. rewrite firstn_app. replace (p - length a) with 0 by lia. cbn. now rewrite app_nil_r. Qed.
Lemma flows_app x a y b z : flows x a y -> flows y b z -> flows x (a ++ b) z.
Proof.
  intros [E1 H1] [E2 H2]. split; [rewrite fold_left_app; congruence|]. intros p N. destruct (Nat.lt_ge_cases p (length a)) as [LT|GE].
  - rewrite nth_error_app1 in N by auto. rewrite before_app1 by lia. auto.
  - rewrite nth_error_app2 in N by auto. replace p with (length a + (p - length a)) by lia. rewrite before_app, E1. auto.
Qed.
Lemma flows_prefix x a b z : flows x (a ++ b) z -> flows x a (fold_left ctx_step a x).
Proof.
  intros [E1 H1]. split; auto. intros p N. assert (p < length a) by (apply nth_error_Some; congruence). specialize (H1 p). rewrite nth_error_app1 in H1 by auto. rewrite before_app1 in H1 by lia. auto.
Qed.
Lemma blank_code b : blank b -> fold_left ctx_step b Code = Code.
Proof.
  induction b as [|a b IH]; intros B; auto. cbn [fold_left]. rewrite step_space; [|apply B; now left|intros q; discriminate]. apply IH. intros c I. apply B. now right.
Qed.
Lemma blank_comment b : fold_left ctx_step b Comment = Comment. Proof. apply comment_stays. Qed.
Lemma before_len x s : ctx_before x s (length s) = fold_left ctx_step s x. Proof. unfold ctx_before. now rewrite firstn_all. Qed.
Definition okc (x : ctx) : Prop := x = Code \/ x = Quote "'" \/ x = Quote """".
Lemma okc_fold t x : okc x -> fold_left ctx_step t x = Comment \/ okc (fold_left ctx_step t x).
Proof.
  revert x. induction t as [|c t IH]; intros x X; cbn [fold_left]; [tauto|]. destruct X as [-> |[-> | ->]]; cbn [ctx_step].
  - destruct (Ascii.eqb_spec c "'") as [-> |N1]; [apply IH; unfold okc; auto|]. destruct (Ascii.eqb_spec c """") as [-> |N2]; [apply IH; unfold okc; auto|]. cbn [orb].
    destruct (Ascii.eqb c "!"); [rewrite comment_stays; auto|apply IH; unfold okc; auto].
  - destruct (Ascii.eqb c "'"); apply IH; unfold okc; auto.
  - destruct (Ascii.eqb c """"); apply IH; unfold okc; auto.
Qed.
Lemma cut_amp {A} (s : list A) k c : nth_error s k = Some c -> s = firstn k s ++ c :: skipn (S k) s.
Proof. revert s. induction k as [|k IH]; intros [|a s] K; cbn in *; try discriminate; [congruence|]. f_equal. now apply IH. Qed.
Lemma nth_firstn {A} (s : list A) k p c : nth_error (firstn k s) p = Some c -> nth_error s p = Some c /\ p < k.
Proof. revert k p. induction s as [|a s IH]; intros [|k] p H; cbn in H; try (destruct p; discriminate). destruct p as [|p]; cbn in *; [split; [auto|lia]|]. apply IH in H as [A1 A2]. split; [auto|lia]. Qed.
Lemma firstn_before x s k p : p <= k -> ctx_before x (firstn k s) p = ctx_before x s p.
Proof. intros H. unfold ctx_before. rewrite firstn_firstn. now rewrite Nat.min_l. Qed.
(* what comes before the continuation mark *)
Lemma scanned_flows x s k cm x' : okc x -> scanned x s (Some k) cm x' -> flows x (firstn k s) x' /\ k < length s /\ okc x' /\ (in_quote x' -> S k = length s).
Proof.
  intros OK [H1 H2 H3 H4]. destruct (proj1 (H2 k) eq_refl) as [K1 K2]. assert (KL : k < length s) by (apply nth_error_Some; congruence).
  assert (FL : fold_left ctx_step s x = fold_left ctx_step (skipn (S k) s) (ctx_step (ctx_before x s k) "&")).
  { rewrite (cut_amp s k _ K1) at 1. rewrite fold_left_app. reflexivity. }
  assert (E : ctx_before x s k = x' /\ okc x' /\ (in_quote x' -> S k = length s)).
  { rewrite H4, before_len, FL. destruct K2 as [C|[(q & C) SL]]; rewrite C.
    - destruct (H3 k K1 C) as (b & B & [-> |(r & ->)]); change (ctx_step Code "&") with Code.
      + rewrite blank_code by auto. split; auto. split; [now left|]. intros (q & D). discriminate.
      + rewrite fold_left_app, blank_code by auto. cbn [fold_left]. change (ctx_step Code "!") with Comment. rewrite comment_stays. split; auto. split; [now left|]. intros (q & D). discriminate.
    - assert (Q : okc (Quote q)). { unfold ctx_before in C. destruct (okc_fold (firstn k s) x OK) as [D|D]; rewrite C in D; [discriminate|exact D]. }
      rewrite SL, skipn_all. cbn [fold_left]. assert (D : ctx_step (Quote q) "&" = Quote q) by (destruct Q as [D|[D|D]]; [discriminate|injection D as ->; reflexivity|injection D as ->; reflexivity]).
      rewrite D. auto. }
  destruct E as (E & OK' & SL). split; [|auto]. split; [exact E|]. intros p N. apply nth_firstn in N as [N LT]. rewrite firstn_before by lia. intros C.
  assert (Some k = Some p) by (apply H2; auto). assert (k = p) by congruence. lia.
Qed.
(* a line that is not continued *)
Lemma scanned_flows_none x s cm x' : scanned x s None cm x' -> flows x s (fold_left ctx_step s x) /\ x' = match fold_left ctx_step s x with Comment => Code | y => y end.
Proof.
  intros [H1 H2 H3 H4]. rewrite before_len in H4. split; auto. split; auto. intros p N C. assert (None = Some p) by (apply H2; auto). discriminate.
Qed.
Lemma blank_fold z b : blank b -> (okc z \/ z = Comment) -> fold_left ctx_step b z = z.
Proof.
  intros B Z. induction b as [|a b IH]; auto. cbn [fold_left]. replace (ctx_step z a) with z; [apply IH; intros c I; apply B; now right|].
  assert (A : is_space a = true) by (apply B; now left). destruct Z as [[-> |[-> | ->]]| ->]; symmetry; auto; apply step_space; auto; intros q [= <-]; reflexivity.
Qed.
Lemma flows_blank x u y b : okc x -> flows x u y -> blank b -> flows x (u ++ b) y.
Proof.
  intros OK F B. apply (flows_app x u y b y); auto. split.
  - apply blank_fold; auto. destruct F as [<- _]. destruct (okc_fold u x OK); auto.
  - intros p N. apply nth_error_In in N. specialize (B _ N). discriminate.
Qed.
Lemma flows_rstrip x u y : okc x -> flows x u y -> flows x (rstrip u) y.
Proof.
  intros OK F. destruct (rstrip_tail u) as (w & W & E). rewrite E in F. assert (G := flows_prefix _ _ _ _ F). destruct F as [F _]. rewrite fold_left_app in F.
  rewrite blank_fold in F; [congruence|auto|]. destruct (okc_fold (rstrip u) x OK); auto.
Qed.
Lemma firstn_rstrip l n : n <= length (rstrip l) -> firstn n l = firstn n (rstrip l).
Proof. intros H. destruct (rstrip_tail l) as (w & W & E). rewrite E at 1. rewrite firstn_app. replace (n - length (rstrip l)) with 0 by lia. now rewrite app_nil_r. Qed.
Lemma skipn_blank (r : str) w n : blank w -> exists w', blank w' /\ skipn n (r ++ w) = skipn n r ++ w'.
Proof.
  intros W. exists (skipn (n - length r) w). split; [|apply skipn_app]. intros c I. apply W. rewrite <- (firstn_skipn (n - length r) w). apply in_or_app. now right.
Qed.
Lemma nth_skipn {A} (s : list A) a p : nth_error (skipn a s) p = nth_error s (a + p).
Proof. revert s. induction a as [|a IH]; intros s; auto. destruct s; cbn; [destruct p; auto|]. apply IH. Qed.
Lemma scan_piece inc x l ci k cm x' : okc x -> line_scan inc x l ci (Some k) cm x' -> flows x (skipn (after_in ci) (firstn k l)) x' /\ okc x' /\ k < length (rstrip l) /\ nth_error l k = Some "&"%char.
Proof.
  intros OK (_ & _ & _ & _ & (co1 & cm1 & S1 & E & _) & _). destruct co1 as [k1|]; [|discriminate]. cbn [option_map] in E. injection E as ->.
  destruct (scanned_flows _ _ _ _ _ OK S1) as (F & LT & OK' & _). rewrite skipn_length in LT.
  assert (KL : after_in ci + k1 < length (rstrip l)) by lia. split; [|split; [auto|split; [auto|]]].
  - rewrite firstn_rstrip by lia. rewrite <- firstn_skipn_comm. exact F.
  - destruct S1 as [_ H2 _ _]. destruct (proj1 (H2 k1) eq_refl) as [K _]. rewrite nth_skipn in K. destruct (rstrip_tail l) as (w & _ & E). rewrite E. rewrite nth_error_app1 by auto. exact K.
Qed.
Lemma scan_end inc x l ci cm : okc x -> line_scan inc x l ci None cm Code -> exists y, flows x (skipn (after_in ci) l) y /\ (y = Code \/ y = Comment).
Proof.
  intros OK (_ & _ & _ & _ & (co1 & cm1 & S1 & E & _) & _). destruct co1 as [k1|]; [discriminate|]. apply scanned_flows_none in S1 as [F X].
  exists (fold_left ctx_step (skipn (after_in ci) (rstrip l)) x). split.
  - destruct (rstrip_tail l) as (w & W & EL). destruct (skipn_blank (rstrip l) w (after_in ci) W) as (w' & W' & E2). rewrite <- EL in E2. rewrite E2. apply flows_blank; auto.
  - destruct (fold_left ctx_step (skipn (after_in ci) (rstrip l)) x); auto; discriminate.
Qed.
Lemma follow_flows x b s bo : follow x b s bo -> okc x -> exists y, flows x s y /\ (y = Code \/ y = Comment).
Proof.
  induction 1 as [x l b t o SK FO IH|x l b ci k cm x' t o NS LS FO IH|x l ci cm NS LS]; intros OK; auto.
  - destruct (scan_piece _ _ _ _ _ _ _ OK LS) as (F & OK' & _). destruct (IH OK') as (y & F2 & Y). exists y. split; auto. eapply flows_app; eauto.
  - eapply scan_end; eauto.
Qed.
(* a text with no ampersand in code that does not end in quotes is not continued *)
Lemma flows_scanned u : forall x y, okc x -> flows x u y -> (y = Code \/ y = Comment) -> exists cm, scanned x u None cm Code.
Proof.
  induction u as [|c t IH]; intros x y OK [E H] Y.
  - cbn in E. subst y. exists None. apply scanned_nil; [destruct Y as [-> | ->]; [discriminate|]; destruct OK as [D|[D|D]]; discriminate|]. split; auto. split; auto.
    destruct Y as [-> | ->]; auto. destruct OK as [D|[D|D]]; discriminate.
  - destruct (Ascii.eqb_spec c "!") as [-> |N1].
    + destruct OK as [-> |OK]; [exists (Some 0); apply scanned_bang; auto|].
      assert (ST : ctx_step x "!" = x) by (destruct OK as [-> | ->]; reflexivity).
      destruct (IH x y) as (cm & S1); [right; auto|split; [cbn [fold_left] in E; now rewrite ST in E|]|auto|].
      * intros p N. specialize (H (S p) N). rewrite before_S, ST in H. exact H.
      * exists (succ_o cm). apply scanned_cons; [intros [_ D]; subst x; destruct OK; discriminate|intros [D _]; discriminate|]. exists None, cm. rewrite ST. auto.
    + assert (OK2 : okc (ctx_step x c)).
      { destruct OK as [-> |[-> | ->]]; cbn [ctx_step]; unfold okc.
        - destruct (Ascii.eqb_spec c "'") as [-> |]; [auto|]. destruct (Ascii.eqb_spec c """") as [-> |]; [auto|]. cbn [orb]. destruct (Ascii.eqb_spec c "!"); [contradiction|auto].
        - destruct (Ascii.eqb c "'"); auto.
        - destruct (Ascii.eqb c """"); auto. }
      destruct (IH (ctx_step x c) y OK2) as (cm & S1); [split; [exact E|]|auto|].
      * intros p N. apply (H (S p) N).
      * exists (succ_o cm). apply scanned_cons; [intros [D _]; contradiction| |exists None, cm; auto].
        intros [-> [D|[(q & D) ->]]]; [apply (H 0 eq_refl); exact D|]. subst x. cbn [fold_left] in E. destruct OK as [D|[D|D]]; try discriminate; injection D as ->; cbn in E; subst y; destruct Y; discriminate.
Qed.
Lemma rstrip_keep b c r : is_space c = false -> exists r', rstrip (b ++ c :: r) = b ++ c :: r'.
Proof.
  intros C. unfold rstrip. rewrite rev_app_distr. cbn [rev]. rewrite <- app_assoc. cbn [app].
  assert (X : forall u v, exists w, dropwhile is_space (u ++ c :: v) = w ++ c :: v).
  { induction u as [|a u IH]; intros v; cbn; [rewrite C; exists []; auto|]. destruct (is_space a); [apply IH|exists (a :: u); auto]. }
  destruct (X (rev r) (rev b)) as (w & ->). exists (rev w). rewrite rev_app_distr. cbn [rev]. rewrite rev_involutive, <- app_assoc. reflexivity.
Qed.
Lemma rstrip_idem l : rstrip (rstrip l) = rstrip l.
Proof.
  unfold rstrip. rewrite rev_involutive. f_equal. generalize (rev l). clear l. induction l as [|c l IH]; auto. cbn. destruct (is_space c) eqn:E; auto. cbn. now rewrite E.
Qed.
Lemma stmt_plain l k cm x h b s bo : ~ skipped l -> line_scan false Code l None (Some k) cm x -> head_text l k x h -> follow x b s bo ->
  ~ skipped (h ++ s) /\ exists cm', line_scan false Code (h ++ s) None None cm' Code.
Proof.
  intros NS LS HT FO. assert (OKC : okc Code) by now left. destruct (scan_piece _ _ _ _ _ _ _ OKC LS) as (F & OK & LT & KA). cbn [after_in skipn] in F.
  destruct (follow_flows _ _ _ _ FO OK) as (y & F2 & Y).
  assert (FH : flows Code h x) by (destruct HT as [[_ ->]|[_ ->]]; auto; now apply flows_rstrip).
  assert (FA : flows Code (h ++ s) y) by (eapply flows_app; eauto).
  assert (HD : exists bl c r, h = bl ++ c :: r /\ blank bl /\ is_space c = false /\ c <> "&"%char /\ c <> "!"%char).
  { destruct (lstrip l) as [|c t] eqn:E; [apply lstrip_nil in E; exfalso; apply NS; now left|]. apply lstrip_cons in E as (bl & -> & B & C).
    assert (CA : c <> "&"%char). { intros ->. destruct LS as (_ & CK & _). assert (None = Some (length bl)); [|discriminate]. apply CK. exists bl, t. auto. }
    assert (CB : c <> "!"%char) by (intros ->; apply NS; right; eauto).
    assert (KB : length bl < k).
    { destruct (Nat.lt_trichotomy k (length bl)) as [K|[K|K]]; auto.
      - rewrite nth_error_app1 in KA by auto. apply nth_error_In in KA. apply B in KA. discriminate.
      - subst k. rewrite nth_error_app2, Nat.sub_diag in KA by auto. cbn in KA. congruence. }
    assert (EF : firstn k (bl ++ c :: t) = bl ++ c :: firstn (k - length bl - 1) t).
    { rewrite firstn_app, firstn_all2 by lia. f_equal. destruct (k - length bl) as [|n] eqn:EN; [lia|]. cbn. f_equal. now rewrite Nat.sub_0_r. }
    destruct HT as [[_ ->]|[_ ->]]; rewrite EF.
    - destruct (rstrip_keep bl c (firstn (k - length bl - 1) t) C) as (r' & ->). exists bl, c, r'. auto.
    - exists bl, c, (firstn (k - length bl - 1) t). auto. }
  destruct HD as (bl & c & r & -> & B & C & CA & CB). rewrite <- app_assoc in *. cbn [app] in *.
  assert (LST : lstrip (bl ++ c :: r ++ s) = c :: r ++ s) by (apply lstrip_cons; eauto).
  split.
  - intros [K|(b2 & r2 & E & B2)]; [apply lstrip_nil in K; congruence|]. rewrite E in LST. rewrite lstrip_app in LST by auto. change (lstrip ("!"%char :: r2)) with ("!"%char :: r2) in LST. congruence.
  - destruct (flows_scanned (rstrip (bl ++ c :: r ++ s)) Code y OKC) as (cm' & S1); [now apply flows_rstrip|auto|]. exists cm'.
    split; [intros K; apply lstrip_nil in K; congruence|]. split.
    { intros q. split; [discriminate|]. intros O. apply opens_iff in O as [_ (t2 & O)]. congruence. }
    split; [congruence|]. split; [intros (q & D); discriminate|]. split; [|intros (q & D); discriminate].
    exists None, cm'. split; auto. split; auto. cbn. destruct cm'; reflexivity.
Qed.
