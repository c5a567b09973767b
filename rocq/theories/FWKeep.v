(* FWKeep.v: no character is lost; comments stay comments; write ends. *)
From Verif Require Import PyStr FWModel FWSpec FWProofs FWFold CheckProofs.
Open Scope nat_scope.
Open Scope list_scope.

Lemma letters_app a b : letters (a ++ b) = letters a ++ letters b.
Proof. apply filter_app. Qed.
Lemma letters_blank w : blank w -> letters w = [].
Proof.
  induction w as [|c w IH]; intros B; auto. cbn [letters List.filter]. unfold mark. rewrite (B c) by now left. cbn.
  apply IH. intros d D. apply B. now right.
Qed.
Lemma rstrip_split s : exists w, blank w /\ s = rstrip s ++ w.
Proof.
  unfold rstrip. destruct (dropwhile_app is_space (rev s)) as (p & P & F). exists (rev p). split.
  - intros c I. apply in_rev in I. rewrite forallb_forall in F. now apply F.
  - apply (f_equal (@rev ascii)) in P. rewrite rev_involutive, rev_app_distr in P. exact P.
Qed.
Lemma letters_rstrip s : letters (rstrip s) = letters s.
Proof. destruct (rstrip_split s) as (w & B & E). rewrite E at 2. now rewrite letters_app, (letters_blank w B), app_nil_r. Qed.
Lemma letters_lstrip s : letters (lstrip s) = letters s.
Proof. destruct (lstrip_split s) as (w & B & E). rewrite E at 2. now rewrite letters_app, (letters_blank w B). Qed.
Lemma letters_strip s : letters (strip s) = letters s.
Proof. unfold strip. now rewrite letters_rstrip, letters_lstrip. Qed.

Lemma keep_main w : forall fuel stmt level cont ls r, fw_write fuel w stmt level cont = (ls, r) ->
  exists rest, letters stmt = letters (List.concat ls) ++ rest /\ (r = Ok tt -> rest = []).
Proof.
  induction fuel as [|fuel IH]; intros stmt level cont ls r H; cbn [fw_write] in H.
  - injection H as <- <-. exists (letters stmt). split; [reflexivity|discriminate].
  - cbv zeta in H.
    set (out := if negb (is_nil (strip stmt)) && negb (starts_amp (strip stmt)) then blank_str (indent_len w level cont) ++ strip stmt else strip stmt) in *.
    assert (LO : letters out = letters stmt).
    { unfold out. destruct (_ && _); [rewrite letters_app, (letters_blank (blank_str _)) by apply blank_rep|]; apply letters_strip. }
    destruct (fw_fill w <? length out).
    + destruct (fw_break _ _ _ _) as [[[b lc] ic]|e]; [|injection H as <- <-; exists (letters stmt); split; [reflexivity|discriminate]].
      match type of H with context [rstrip ?x] => set (line := x) in * end.
      assert (LL : letters (rstrip line) = letters (firstn (S b) out)).
      { rewrite letters_rstrip. unfold line. rewrite letters_app. destruct (truthy lc).
        - rewrite letters_app, (letters_blank (blank_str _)) by apply blank_rep. cbn. apply app_nil_r.
        - cbn. apply app_nil_r. }
      assert (SPL : letters stmt = letters (firstn (S b) out) ++ letters (skipn (S b) out)).
      { rewrite <- letters_app, firstn_skipn. symmetry. exact LO. }
      destruct (b =? 0).
      * injection H as <- <-. exists (letters (skipn (S b) out)). split; [|discriminate]. cbn [List.concat]. now rewrite app_nil_r, LL.
      * match type of H with context [fw_write fuel w ?s level ?c] => set (st := s) in *; destruct (fw_write fuel w st level c) as [ls2 r2] eqn:W end.
        injection H as <- <-. destruct (IH _ _ _ _ _ W) as (rest & R1 & R2). exists rest. split; auto.
        cbn [List.concat]. rewrite letters_app, LL, <- app_assoc, <- R1, SPL. f_equal.
        assert (X : letters ((if ic then L "! " else []) ++ skipn (S b) out) = letters (skipn (S b) out)) by (destruct ic; reflexivity).
        symmetry. unfold st. destruct lc; [exact X|exact X|].
        match goal with |- letters (if ?z then _ else _) = _ => destruct z; exact X end.
    + injection H as <- <-. exists []. split; auto. cbn [List.concat]. now rewrite app_nil_r, app_nil_r, LO.
Qed.

(* ---- comments ---- *)
Lemma comment_first w t n : blank w -> comment_line (firstn n (w ++ "!"%char :: t)).
Proof.
  intros B. rewrite firstn_app. destruct (n - length w) as [|k] eqn:E.
  - left. cbn [firstn]. rewrite app_nil_r. intros c I. apply B. rewrite <- (firstn_skipn n w). apply in_or_app. now left.
  - right. cbn [firstn]. rewrite firstn_all2 by lia. eauto.
Qed.
Lemma comment_rstrip s : comment_line s -> comment_line (rstrip s).
Proof.
  destruct (rstrip_split s) as (b & BB & E). intros [B|(w & t & B & ES)].
  - left. intros c I. apply B. rewrite E. apply in_or_app. now left.
  - destruct (rstrip s) as [|x r] eqn:ER using rev_ind; [left; intros c []|]. clear IHr.
    right. exists w. assert (NX : exists t', r ++ [x] = w ++ "!"%char :: t').
    { rewrite ES in E. clear - E BB B. revert w B E. generalize (r ++ [x]) as y. intros y. revert y. 
      induction y as [|c y IH]; intros w B E.
      - exfalso. cbn in E. assert (X : is_space "!" = true) by (apply BB; rewrite <- E; apply in_or_app; right; now left). discriminate X.
      - destruct w as [|d w]; cbn in E; injection E as <- E; [cbn; eauto|].
        destruct (IH w) as (t' & ->); [intros e I; apply B; now right|auto|]. exists t'. reflexivity. }
    destruct NX as (t' & ->). eauto.
Qed.
Lemma bang_strip r : exists t, strip ("!"%char :: r) = "!"%char :: t.
Proof.
  unfold strip. change (lstrip ("!"%char :: r)) with ("!"%char :: r). destruct (rstrip_split ("!"%char :: r)) as (w & B & E).
  destruct (rstrip ("!"%char :: r)) as [|c t].
  - cbn in E. assert (X : is_space "!" = true) by (apply B; rewrite <- E; now left). discriminate X.
  - cbn in E. injection E as <- _. eauto.
Qed.
Lemma scan_bang cs i t : exists sp cm, fw_scan cs true i None ("!"%char :: t) = (sp, cm, true).
Proof. cbn. destruct (fw_scan cs true (S i) None t) as [[sp cm] ic]. eauto. Qed.
Lemma comment_break w ind t : forall r, fw_break w ind ("!"%char :: t) (blank_str ind ++ "!"%char :: t) = r ->
  (exists b, r = Ok (b, LNo, true)) \/ (exists e, r = Raise e).
Proof.
  unfold fw_break. cbn [is_comment_text]. change (Ascii.eqb "!" "!") with true. cbv iota. rewrite skipn_pre by (now rewrite rep_length).
  destruct (scan_bang (fw_comment_start w) ind t) as (sp & cm & ->). intros r.
  destruct (first_signif _ _) as [fs|]; cbn [bind]; [|eauto]. cbv zeta.
  match goal with |- bind ?x _ = _ -> _ => destruct x as [l|e]; cbn [bind]; intros <-; eauto end.
Qed.
Lemma comment_main w : forall fuel stmt level cont ls r t, strip stmt = "!"%char :: t -> fw_write fuel w stmt level cont = (ls, r) ->
  Forall comment_line ls.
Proof.
  induction fuel as [|fuel IH]; intros stmt level cont ls r t ST H; cbn [fw_write] in H.
  - injection H as <- <-. constructor.
  - cbv zeta in H. rewrite ST in H. cbn [is_nil starts_amp negb andb] in H. change (Ascii.eqb "!" "&") with false in H. cbn [negb] in H. cbv iota in H.
    destruct (fw_fill w <? length _).
    + destruct (comment_break w (indent_len w level cont) t _ eq_refl) as [(b & E)|(e & E)]; rewrite E in H.
      * cbn [truthy] in H. rewrite app_nil_r in H.
        assert (C : comment_line (rstrip (firstn (S b) (blank_str (indent_len w level cont) ++ "!"%char :: t))))
          by (apply comment_rstrip, comment_first, blank_rep).
        destruct (b =? 0); [injection H as <- <-; constructor; [exact C|constructor]|].
        match type of H with context [fw_write fuel w ?s level ?c] => set (st := s) in *; destruct (fw_write fuel w st level c) as [ls2 r2] eqn:W end.
        injection H as <- <-. constructor; [exact C|]. destruct (bang_strip (" "%char :: skipn (S b) (blank_str (indent_len w level cont) ++ "!"%char :: t))) as (t2 & E2).
        apply (IH _ _ _ _ _ _ E2 W).
      * injection H as <- <-. constructor.
    + injection H as <- <-. constructor; [|constructor]. right. exists (blank_str (indent_len w level cont)), t. split; auto. apply blank_rep.
Qed.

(* ---- termination ---- *)
Definition signif (s : str) : nat := length (List.filter (fun c => negb (Ascii.eqb c "!" || Ascii.eqb c " ")) s).
Lemma signif_app a b : signif (a ++ b) = signif a + signif b.
Proof. unfold signif. rewrite filter_app. apply app_length. Qed.
Lemma signif_le s : signif s <= length s.
Proof. unfold signif. induction s as [|c s IH]; cbn; auto. destruct (negb _); cbn; lia. Qed.
Lemma signif_rep n : signif (blank_str n) = 0.
Proof. unfold signif, blank_str. induction n; cbn; auto. Qed.
Lemma strip_len s : length (strip s) <= length s.
Proof.
  unfold strip. etransitivity; [apply rstrip_len|]. destruct (lstrip_split s) as (w & _ & E). rewrite E at 2. rewrite app_length. lia.
Qed.
Lemma signif_strip s : signif (strip s) <= signif s.
Proof.
  unfold strip. destruct (lstrip_split s) as (w & _ & E). rewrite E at 2. rewrite signif_app.
  destruct (rstrip_split (lstrip s)) as (v & _ & E2). rewrite E2 at 2. rewrite signif_app. lia.
Qed.
Lemma scan_lower cs isc : forall s i q x, 
  let '(sp, cm, _) := fw_scan cs isc i q s in
  In x sp \/ In x cm -> i <= x \/ (S x = i /\ q = None /\ exists t, s = "!"%char :: t).
Proof.
  induction s as [|c s IH]; intros i q x; cbn [fw_scan].
  - intros [[]|[]].
  - assert (W : forall q', let '(sp, cm, _) := fw_scan cs isc (S i) q' s in In x sp \/ In x cm -> i <= x).
    { intros q'. specialize (IH (S i) q' x). destruct (fw_scan cs isc (S i) q' s) as [[sp cm] ic]. intros X. apply IH in X as [X|[X _]]; lia. }
    destruct q as [k|].
    + specialize (W (if Ascii.eqb c k then None else Some k)). destruct (fw_scan cs isc (S i) _ s) as [[sp cm] ic]. intros X. left. auto.
    + destruct (Ascii.eqb c "'" || Ascii.eqb c """").
      * specialize (W (Some c)). destruct (fw_scan cs isc (S i) _ s) as [[sp cm] ic]. intros X. left. auto.
      * specialize (W None). destruct (Ascii.eqb_spec c "!") as [->|N].
        -- destruct (negb isc && (cs <=? i)).
           ++ destruct i as [|k]; intros X.
              ** destruct X as [[]|[]].
              ** destruct X as [[<-|[]]|[]]. right. eauto.
           ++ destruct (fw_scan cs isc (S i) None s) as [[sp cm] ic]. destruct i as [|k]; intros X; [left; auto|].
              destruct X as [[<-|X]|X]; eauto.
        -- destruct (fw_scan cs isc (S i) None s) as [[sp cm] ic].
           destruct (Ascii.eqb c " "); [|destruct (Ascii.eqb c ","); [|destruct (startswith _ _)]]; intros X.
           ++ destruct X as [[<-|X]|X]; auto.
           ++ destruct X as [X|[<-|X]]; auto.
           ++ destruct X as [X|[<-|X]]; auto.
           ++ auto.
Qed.
Lemma best_in w l : (In (find_best_break w l) l /\ 0 < find_best_break w l) \/ find_best_break w l = S (fw_max w).
Proof.
  unfold find_best_break. destruct (max_below (fw_fill w) l) as [b|] eqn:E; destruct (max_below (fw_max w) l) as [b'|] eqn:E2.
  all: repeat match goal with H : max_below _ _ = Some _ |- _ => apply max_below_some in H as [? ?] end.
  all: repeat match goal with |- context [if ?x then _ else _] => destruct x end; auto; left; split; auto; lia.
Qed.
Lemma scan_cm_signif cs isc : forall s i q x,
  let '(_, cm, _) := fw_scan cs isc i q s in In x cm -> 1 <= signif (firstn (S x - i) s).
Proof.
  induction s as [|c s IH]; intros i q x; cbn [fw_scan].
  - intros [].
  - assert (W : forall q', let '(_, cm, _) := fw_scan cs isc (S i) q' s in In x cm -> 1 <= signif (firstn (S x - i) (c :: s))).
    { intros q'. specialize (IH (S i) q' x). destruct (fw_scan cs isc (S i) q' s) as [[sp cm] ic]. intros X. apply IH in X.
      destruct (S x - i) as [|k] eqn:E; [replace (S x - S i) with 0 in X by lia; cbn in X; lia|].
      replace (S x - S i) with k in X by lia. cbn [firstn]. change (c :: firstn k s) with ([c] ++ firstn k s). rewrite signif_app. lia. }
    destruct q as [k|].
    + specialize (W (if Ascii.eqb c k then None else Some k)). destruct (fw_scan cs isc (S i) _ s) as [[sp cm] ic]. auto.
    + destruct (Ascii.eqb c "'" || Ascii.eqb c """").
      * specialize (W (Some c)). destruct (fw_scan cs isc (S i) _ s) as [[sp cm] ic]. auto.
      * specialize (W None). destruct (Ascii.eqb_spec c "!") as [->|N].
        -- destruct (negb isc && (cs <=? i)); [intros []|].
           destruct (fw_scan cs isc (S i) None s) as [[sp cm] ic]. auto.
        -- destruct (fw_scan cs isc (S i) None s) as [[sp cm] ic].
           destruct (Ascii.eqb c " "); [auto|destruct (Ascii.eqb_spec c ",") as [->|]; [|destruct (startswith _ _) eqn:SL; [|auto]]].
           ++ intros [<-|X]; auto. replace (S i - i) with 1 by lia. cbn. auto.
           ++ apply starts_slash in SL as (-> & r & ->). intros [<-|X]; auto. replace (S (S i) - i) with 2 by lia. cbn. lia.
Qed.
Lemma first_signif_spec : forall s i fs, first_signif i s = Some fs -> i <= fs /\ 1 <= signif (firstn (S fs - i) s).
Proof.
  induction s as [|c s IH]; intros i fs H; cbn [first_signif] in H; [discriminate|].
  destruct (Ascii.eqb c "!" || Ascii.eqb c " ") eqn:E.
  - apply IH in H as [A B]. split; [lia|]. replace (S fs - i) with (S (S fs - S i)) by lia. cbn [firstn].
    change (c :: ?x) with ([c] ++ x). rewrite signif_app. lia.
  - injection H as <-. split; auto. replace (S i - i) with 1 by lia. cbn. unfold signif. cbn. rewrite E. cbn. auto.
Qed.
Lemma signif_firstn_mono s n m : n <= m -> signif (firstn n s) <= signif (firstn m s).
Proof.
  intros H. rewrite <- (firstn_skipn n (firstn m s)), firstn_firstn, Nat.min_l, signif_app by auto. lia.
Qed.

(* the number of calls that suffice *)
Definition need (s : str) : nat := if is_comment_text s then length s + signif s else 2 * length s + 1.
Lemma need_le s : need s <= 2 * length s + 1.
Proof. unfold need. pose proof (signif_le s). destruct (is_comment_text s); lia. Qed.
Lemma need_bang r : need (strip ("!"%char :: r)) <= 1 + length r + signif r.
Proof.
  destruct (bang_strip r) as (t & E). pose proof (strip_len ("!"%char :: r)) as A. pose proof (signif_strip ("!"%char :: r)) as B.
  rewrite E in *. unfold need. cbn [is_comment_text]. change (Ascii.eqb "!" "!") with true. cbv iota.
  change (signif ("!"%char :: r)) with (signif r) in B. cbn [length] in A |- *. cbn [length] in *. lia.
Qed.

Lemma break_pick w sps cm : let b1 := find_best_break w sps in
  let b2 := if fw_fill w <=? b1 then Nat.min b1 (find_best_break w cm) else b1 in
  fw_max w <= b2 \/ (0 < b2 /\ (In b2 sps \/ In b2 cm)).
Proof.
  cbv zeta. destruct (best_in w sps) as [[I1 L1]|E1], (best_in w cm) as [[I2 L2]|E2];
    destruct (fw_fill w <=? find_best_break w sps); try (right; split; [auto|now left]).
  - destruct (Nat.min_spec (find_best_break w sps) (find_best_break w cm)) as [[_ ->]|[_ ->]]; auto.
  - rewrite E2. destruct (Nat.min_spec (find_best_break w sps) (S (fw_max w))) as [[_ ->]|[_ ->]]; auto.
  - rewrite E1. destruct (Nat.min_spec (S (fw_max w)) (find_best_break w cm)) as [[_ ->]|[_ ->]]; auto.
  - rewrite E1. auto.
  - rewrite E1, E2, Nat.min_id. auto.
  - rewrite E1. auto.
Qed.
Lemma break_pos w ind o out b lc ic : fw_break w ind o out = Ok (b, lc, ic) ->
  exists sp cm sps, fw_scan (fw_comment_start w) (is_comment_text o) ind None (skipn ind out) = (sp, cm, ic) /\
    (if is_comment_text o then exists fs, first_signif (S ind) (skipn (S ind) out) = Some fs /\ sps = List.filter (fun x => fs <=? x) sp
     else sps = sp) /\
    (b = fw_max w - 1 \/ (0 < b /\ (In b sps \/ In b cm))) /\ (lc = LAmp -> in_quote (firstn (S b) out) = true).
Proof.
  unfold fw_break. destruct (fw_scan _ _ ind None (skipn ind out)) as [[sp cm] i].
  intros H. apply bind_ok in H as (sps & S1 & H). cbv zeta in H. apply bind_ok in H as (l & L1 & H). injection H as B LC <-.
  exists sp, cm, sps. split; auto. split; [|split].
  - destruct (is_comment_text o); [|congruence]. destruct (first_signif _ _) as [fs|]; [|discriminate]. injection S1 as <-. eauto.
  - subst b. pose proof (break_pick w sps cm) as P. cbv zeta in P.
    match goal with |- context [if fw_max w <=? ?x then _ else _] => destruct (Nat.leb_spec (fw_max w) x); auto end.
    destruct P as [P|P]; [lia|auto].
  - intros E. rewrite B in L1. clear B. subst lc. destruct (i || is_comment_text o); [discriminate|]. subst l.
    match type of L1 with (if ?x then _ else _) = _ => destruct x; [|discriminate] end.
    match type of L1 with (if ?x then _ else _) = _ => destruct x; [reflexivity|] end.
    destruct (lstrip _) as [|c ?]; [discriminate|]. destruct (Ascii.eqb c "!"); discriminate.
Qed.

Lemma signif_skip s n : signif s = signif (firstn n s) + signif (skipn n s).
Proof. now rewrite <- signif_app, firstn_skipn. Qed.
Lemma skipn_past {A} (a b : list A) n : length a <= n -> skipn n (a ++ b) = skipn (n - length a) b.
Proof. intros H. rewrite skipn_app, skipn_all2 by auto. reflexivity. Qed.
Lemma firstn_past {A} (a b : list A) n : length a <= n -> firstn n (a ++ b) = a ++ firstn (n - length a) b.
Proof. intros H. rewrite firstn_app, firstn_all2 by auto. reflexivity. Qed.

Lemma comment_step w ind t b lc ic : ind + 3 <= fw_max w ->
  let s := "!"%char :: t in let out := blank_str ind ++ s in
  fw_break w ind s out = Ok (b, lc, ic) ->
  need (strip (L "! " ++ skipn (S b) out)) < need s.
Proof.
  intros M s out H. pose proof (comment_break w ind t _ H) as [(b' & [= <- -> ->])|(e & E)]; [|discriminate].
  apply break_pos in H as (sp & cm & sps & SC & FS & BP & _).
  change (is_comment_text s) with true in *. cbv iota in FS. destruct FS as (fs & FS & ->).
  assert (NS : need s = length s + signif s) by reflexivity.
  change (L "! " ++ skipn (S b) out) with ("!"%char :: " "%char :: skipn (S b) out).
  pose proof (need_bang (" "%char :: skipn (S b) out)) as NB. cbn [length] in NB.
  change (signif (" "%char :: skipn (S b) out)) with (signif (skipn (S b) out)) in NB.
  unfold out in FS, SC. rewrite skipn_pre in SC by (now rewrite rep_length). rewrite skipn_past in FS by (rewrite rep_length; lia).
  rewrite rep_length in FS. replace (S ind - ind) with 1 in FS by lia. apply first_signif_spec in FS as [F1 F2]. change (skipn 1 s) with t in F2.
  assert (SG : 1 <= signif s).
  { change (signif s) with (signif t). rewrite (signif_skip t (S fs - S ind)). lia. }
  destruct (Nat.le_gt_cases (length out) (S b)) as [LE|GT].
  { rewrite skipn_all2 by auto. change (need (strip ("!"%char :: " "%char :: []))) with 1. rewrite NS. unfold s in *. cbn [length]. lia. }
  assert (LB : ind < b /\ (1 <= signif (firstn (S b - ind) s) \/ ind + 2 <= b)).
  { destruct BP as [->|[B0 [I|I]]].
    - split; [|right]; lia.
    - apply filter_In in I as [_ I]. apply Nat.leb_le in I. split; [lia|left].
      etransitivity; [exact F2|]. replace (S b - ind) with (S (b - ind)) by lia. cbn [s firstn].
      change (signif ("!"%char :: ?x)) with (signif x). apply signif_firstn_mono. lia.
    - pose proof (scan_cm_signif (fw_comment_start w) true s ind None b) as Z. rewrite SC in Z. specialize (Z I). split; [|now left].
      destruct (S b - ind) as [|[|k]] eqn:E; [cbn in Z; lia|cbn in Z; lia|lia]. }
  destruct LB as [B1 B2]. unfold out in NB, GT. rewrite skipn_past in NB by (rewrite rep_length; lia). rewrite rep_length in NB.
  rewrite app_length, rep_length in GT.
  fold out in NB. unfold out. rewrite skipn_past by (rewrite rep_length; lia). rewrite rep_length.
  rewrite skipn_length in NB. pose proof (signif_skip s (S b - ind)). lia.
Qed.
Lemma code_step w ind s b lc ic : ind + 3 <= fw_max w -> is_comment_text s = false -> strip s = s -> s <> [] ->
  let out := if starts_amp s then s else blank_str ind ++ s in
  fw_break w ind s out = Ok (b, lc, ic) -> b <> 0 ->
  need (strip (match lc with LAmp => let st := (if ic then L "! " else []) ++ skipn (S b) out in if is_nil st then st else "&"%char :: st
               | _ => (if ic then L "! " else []) ++ skipn (S b) out end)) < need s.
Proof.
  intros M IC ST NE out H B0.
  assert (ICL : ic = true -> lc = LNo).
  { intros ->. revert H. unfold fw_break. destruct (fw_scan _ _ ind None (skipn ind out)) as [[sp cm] i].
    intros H. apply bind_ok in H as (sps & S1 & H). cbv zeta in H. apply bind_ok in H as (l & L1 & H). injection H as B LC ->. now subst lc. }
  apply break_pos in H as (sp & cm & sps & SC & FS & BP & QA). rewrite IC in *. subst sps.
  assert (NS : need s = 2 * length s + 1) by (unfold need; now rewrite IC).
  assert (NZ : 1 <= length s) by (destruct s; [contradiction|cbn; lia]).
  assert (LEN : length (skipn (S b) out) <= length s - 1 /\ (lc = LAmp -> skipn (S b) out = [] \/ length (skipn (S b) out) <= length s - 2)).
  { unfold out in *. destruct (starts_amp s) eqn:SA.
    - rewrite skipn_length. split; [lia|]. intros _. right. lia.
    - assert (BI : ind <= b).
      { destruct BP as [->|[_ I]]; [lia|]. rewrite skipn_pre in SC by (now rewrite rep_length).
        pose proof (scan_lower (fw_comment_start w) false s ind None b) as Z. rewrite SC in Z. destruct (Z I) as [|(_ & _ & t & ->)]; auto. discriminate IC. }
      rewrite skipn_past by (rewrite rep_length; lia). rewrite rep_length, skipn_length. split; [lia|]. intros ->. specialize (QA eq_refl).
      right. destruct (Nat.eq_dec b ind) as [->|]; [|lia]. exfalso.
      destruct BP as [->|[_ I]]; [lia|]. rewrite skipn_pre in SC by (now rewrite rep_length).
      rewrite firstn_past in QA by (rewrite rep_length; lia). rewrite rep_length in QA. replace (S ind - ind) with 1 in QA by lia.
      unfold in_quote in QA. rewrite quote_app, blank_quote in QA by apply blank_rep. destruct s as [|c t]; [contradiction|]. cbn [firstn quote_from] in QA.
      cbn [fw_scan] in SC. destruct (Ascii.eqb c "'" || Ascii.eqb c """"); [|discriminate].
      pose proof (scan_lower (fw_comment_start w) false t (S ind) (Some c) ind) as Z. rewrite SC in Z. destruct (Z I) as [|(_ & X & _)]; [lia|discriminate X]. }
  destruct LEN as [L1 L2]. destruct ic.
  - rewrite (ICL eq_refl). change (L "! " ++ skipn (S b) out) with ("!"%char :: " "%char :: skipn (S b) out).
    pose proof (need_bang (" "%char :: skipn (S b) out)) as NB. cbn [length] in NB.
    change (signif (" "%char :: skipn (S b) out)) with (signif (skipn (S b) out)) in NB. pose proof (signif_le (skipn (S b) out)). lia.
  - cbn [app]. destruct lc.
    + pose proof (need_le (strip (skipn (S b) out))). pose proof (strip_len (skipn (S b) out)). lia.
    + pose proof (need_le (strip (skipn (S b) out))). pose proof (strip_len (skipn (S b) out)). lia.
    + cbv zeta. destruct (L2 eq_refl) as [->|X].
      * cbn. lia.
      * destruct (skipn (S b) out) as [|x r] eqn:ER; cbn [is_nil].
        -- cbn. lia.
        -- pose proof (need_le (strip ("&"%char :: x :: r))). pose proof (strip_len ("&"%char :: x :: r)) as Y. cbn [length] in *. lia.
Qed.
Lemma term_main w level : fw_indent w * level + fw_cont w + 3 <= fw_max w ->
  forall fuel stmt cont, need (strip stmt) < fuel -> snd (fw_write fuel w stmt level cont) <> Raise "RecursionError".
Proof.
  intros M. induction fuel as [|fuel IH]; intros stmt cont N; [lia|]. cbn [fw_write]. cbv zeta.
  assert (IND : indent_len w level cont + 3 <= fw_max w) by (unfold indent_len; destruct cont; lia).
  set (ind := indent_len w level cont) in *. set (s := strip stmt) in *.
  assert (STS : strip s = s) by apply strip_idem.
  assert (OUT : (if negb (is_nil s) && negb (starts_amp s) then blank_str ind ++ s else s) = if starts_amp s then s else if is_nil s then [] else blank_str ind ++ s).
  { destruct s; cbn [is_nil negb andb starts_amp]; auto. destruct (Ascii.eqb a "&"); reflexivity. }
  rewrite OUT. clear OUT. destruct (fw_fill w <? length _) eqn:F; [|cbn; discriminate].
  assert (SN : s <> []) by (intros E; rewrite E in F; apply Nat.ltb_lt in F; cbn in F; lia).
  replace (is_nil s) with false by (destruct s; [contradiction|reflexivity]).
  destruct (fw_break w ind s _) as [[[b lc] ic]|e] eqn:B.
  - destruct (b =? 0) eqn:B0; [cbn; discriminate|]. apply Nat.eqb_neq in B0.
    match goal with |- context [fw_write fuel w ?x level ?c] => assert (LT : need (strip x) < need s) end.
    { destruct (is_comment_text s) eqn:C.
      - destruct s as [|c t]; [contradiction|]. cbn [is_comment_text] in C. apply Ascii.eqb_eq in C as ->.
        cbn [starts_amp] in *. change (Ascii.eqb "!" "&") with false in *. cbv iota in *.
        destruct (comment_break w ind t _ B) as [(b' & [= <- -> ->])|(e & E)]; [|discriminate].
        apply (comment_step w ind t b LNo true IND B).
      - pose proof (code_step w ind s b lc ic IND C STS SN B B0) as Z. destruct lc; exact Z. }
    match goal with |- context [fw_write fuel w ?x level ?c] => specialize (IH x c); destruct (fw_write fuel w x level c) as [ls r] end.
    cbn [snd] in *. apply IH. lia.
  - cbn [snd]. intros [= ->]. revert B. unfold fw_break. destruct (fw_scan _ _ ind None _) as [[sp cm] i].
    match goal with |- bind ?x _ = _ -> _ => destruct x as [sps|e] eqn:X; cbn [bind] end.
    + cbv zeta. match goal with |- bind ?x _ = _ -> _ => destruct x as [l|e] eqn:Y; cbn [bind]; [discriminate|] end.
      intros [= ->]. repeat match type of Y with (if ?x then _ else _) = _ => destruct x; try discriminate Y end.
      destruct (lstrip _); discriminate Y.
    + intros [= ->]. destruct (is_comment_text s); [|discriminate]. destruct (first_signif _ _); discriminate.
Qed.
