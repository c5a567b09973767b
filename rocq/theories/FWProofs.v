(* FWProofs.v: lemmas about FWModel. *)
From Verif Require Import PyStr FWModel FWSpec.
Open Scope nat_scope.
Open Scope list_scope.

(* ---- quotes ---- *)
Lemma quote_app a : forall q b, quote_from q (a ++ b) = quote_from (quote_from q a) b.
Proof. induction a as [|c a IH]; intros q b; cbn [app quote_from]; auto. destruct q; apply IH. Qed.
Lemma is_quote_test c : (Ascii.eqb c "'" || Ascii.eqb c """") = true <-> is_quote c.
Proof. unfold is_quote. rewrite orb_true_iff, !Ascii.eqb_eq. reflexivity. Qed.
Lemma not_quote_test c : ~ is_quote c -> (Ascii.eqb c "'" || Ascii.eqb c """") = false.
Proof. intros H. destruct (Ascii.eqb c "'" || Ascii.eqb c """") eqn:E; auto. apply is_quote_test in E. contradiction. Qed.
Lemma quote_in q b : ~ In q b -> quote_from (Some q) b = Some q.
Proof.
  induction b as [|c b IH]; intros N; cbn [quote_from]; auto.
  destruct (Ascii.eqb_spec c q) as [->|E]; [exfalso; apply N; now left|]. apply IH. intros I. apply N. now right.
Qed.
Lemma code_quote s : code s -> quote_from None s = None.
Proof.
  induction 1 as [|a c H IH N|a q b H IH Q N]; auto; rewrite quote_app, IH; cbn [quote_from].
  - now rewrite not_quote_test.
  - apply is_quote_test in Q. rewrite Q, quote_app, quote_in by auto. cbn. now rewrite Ascii.eqb_refl.
Qed.
(* every text is code, or code followed by an open constant *)
Lemma quote_cases s : code s \/ exists a q b, s = a ++ q :: b /\ code a /\ is_quote q /\ ~ In q b.
Proof.
  induction s as [|c s IH] using rev_ind; [left; constructor|].
  destruct IH as [H|(a & q & b & -> & H & Q & N)].
  - destruct (Ascii.eqb c "'" || Ascii.eqb c """") eqn:E.
    + apply is_quote_test in E. right. exists s, c, []. auto.
    + left. constructor; auto. intros X. apply is_quote_test in X. congruence.
  - destruct (Ascii.eqb_spec c q) as [->|E].
    + left. rewrite <- app_assoc. cbn [app]. now constructor.
    + right. exists a, q, (b ++ [c]). rewrite <- app_assoc. split; auto. split; auto. split; auto.
      rewrite in_app_iff. intros [I|[I|[]]]; [contradiction|congruence].
Qed.
Lemma quote_code s : quote_from None s = None -> code s.
Proof.
  intros H. destruct (quote_cases s) as [C|(a & q & b & -> & C & Q & N)]; auto.
  rewrite quote_app, (code_quote a C) in H. cbn [quote_from] in H. apply is_quote_test in Q. rewrite Q, quote_in in H by auto. discriminate.
Qed.
Lemma code_spec s : code s <-> quote_from None s = None.
Proof. split; [apply code_quote|apply quote_code]. Qed.
Lemma code_app a b : code a -> (code (a ++ b) <-> code b).
Proof. intros H. rewrite !code_spec, quote_app. apply code_spec in H. rewrite H. reflexivity. Qed.

Lemma blank_nil : blank []. Proof. intros c []. Qed.
Lemma blank_app a b : blank a -> blank b -> blank (a ++ b).
Proof. intros A B c I. apply in_app_iff in I as [I|I]; auto. Qed.
Lemma blank_rep n : blank (blank_str n).
Proof. intros c I. apply repeat_spec in I as ->. reflexivity. Qed.
Lemma rep_length n : length (blank_str n) = n. Proof. apply repeat_length. Qed.
Lemma space_not_quote c : is_space c = true -> ~ is_quote c.
Proof. intros S [->| ->]; discriminate. Qed.
Lemma blank_quote w : blank w -> quote_from None w = None.
Proof.
  induction w as [|c w IH]; intros B; auto. cbn [quote_from].
  rewrite not_quote_test by (apply space_not_quote, B; now left). apply IH. intros d D. apply B. now right.
Qed.
Lemma blank_code w : blank w -> code w. Proof. intros B. apply code_spec. now apply blank_quote. Qed.

(* ---- break points ---- *)
Definition nobang (q : option ascii) (s : str) : Prop := forall a c b, s = a ++ c :: b -> quote_from q a = None -> c <> "!"%char.
Lemma nobang_tail q c s : nobang q (c :: s) -> nobang (quote_from q [c]) s.
Proof. intros H a d b E Q. apply (H (c :: a) d b); [now rewrite E|]. change (c :: a) with ([c] ++ a). now rewrite quote_app. Qed.
Lemma starts_slash c t : startswith (L "//") (c :: t) = true -> c = "/"%char /\ exists r, t = "/"%char :: r.
Proof.
  intros H. unfold startswith in H. destruct (after_prefix (L "//") (c :: t)) as [r|] eqn:E; [|discriminate].
  apply after_prefix_some in E. cbn in E. injection E as -> ->. eauto.
Qed.
Definition is_break (q : option ascii) (s : str) (i x : nat) : Prop :=
  exists a b, s = a ++ b /\ i + length a = S x /\ quote_from q a = None /\ sep a.
Lemma break_tail q c s i x : is_break (quote_from q [c]) s (S i) x -> is_break q (c :: s) i x.
Proof.
  intros (a & b & -> & E & Q & (p & P)). exists (c :: a), b. split; auto. split; [cbn; lia|]. split.
  - change (c :: a) with ([c] ++ a). now rewrite quote_app.
  - exists (c :: p). cbn. destruct P as [-> |[-> | ->]]; auto.
Qed.
Lemma scan_sound cs isc : forall s i q, nobang q s ->
  let '(sp, cm, ic) := fw_scan cs isc i q s in ic = false /\ forall x, In x sp \/ In x cm -> is_break q s i x.
Proof.
  induction s as [|c s IH]; intros i q NB; cbn [fw_scan].
  - split; auto. intros x [[]|[]].
  - pose proof (nobang_tail q c s NB) as NT. destruct q as [k|].
    + cbn [quote_from] in NT. specialize (IH (S i) _ NT). destruct (fw_scan cs isc (S i) _ s) as [[sp cm] ic].
      destruct IH as [I1 I2]. split; auto. intros x X. apply break_tail. now apply I2.
    + cbn [quote_from] in NT. destruct (Ascii.eqb c "'" || Ascii.eqb c """") eqn:Q.
      * specialize (IH (S i) _ NT). destruct (fw_scan cs isc (S i) _ s) as [[sp cm] ic].
        destruct IH as [I1 I2]. split; auto. intros x X. apply break_tail. cbn [quote_from]. rewrite Q. now apply I2.
      * destruct (Ascii.eqb_spec c "!") as [->|NE]; [exfalso; apply (NB [] "!"%char s); auto|].
        specialize (IH (S i) _ NT). destruct (fw_scan cs isc (S i) _ s) as [[sp cm] ic].
        destruct IH as [I1 I2].
        assert (REST : forall x, In x sp \/ In x cm -> is_break None (c :: s) i x).
        { intros x X. apply break_tail. cbn [quote_from]. rewrite Q. now apply I2. }
        destruct (Ascii.eqb_spec c " ") as [->|N1]; [|destruct (Ascii.eqb_spec c ",") as [->|N2]].
        -- split; auto. intros x [[<-|X]|X]; auto. exists (L " "), s. split; auto. split; [cbn; lia|]. split; auto. exists []. auto.
        -- split; auto. intros x [X|[<-|X]]; auto. exists (L ","), s. split; auto. split; [cbn; lia|]. split; auto. exists []. auto.
        -- destruct (startswith (L "//") (c :: s)) eqn:SL; [|split; auto].
           apply starts_slash in SL as (-> & r & ->). split; auto. intros x [X|[<-|X]]; auto.
           exists (L "//"), r. split; auto. split; [cbn; lia|]. split; auto. exists []. auto.
Qed.
Lemma sep_cons c a : sep (c :: a) -> (a = [] /\ (c = " "%char \/ c = ","%char)) \/ (c = "/"%char /\ a = L "/") \/ sep a.
Proof.
  intros (p & P). destruct p as [|d p].
  - destruct P as [P|[P|P]]; cbn in P; injection P as -> ->; auto.
  - right. destruct P as [P|[P|P]]; cbn in P; injection P as -> ->; right; exists p; auto.
Qed.
Definition okq (q : option ascii) : Prop := match q with Some k => is_quote k | None => True end.
Lemma okq_step q c : okq q -> okq (quote_from q [c]).
Proof.
  intros H. destruct q as [k|]; cbn [quote_from].
  - destruct (Ascii.eqb c k); cbn; auto.
  - destruct (Ascii.eqb c "'" || Ascii.eqb c """") eqn:E; cbn; auto. now apply is_quote_test.
Qed.
Lemma scan_complete cs isc : forall s i q, okq q -> nobang q s ->
  let '(sp, cm, ic) := fw_scan cs isc i q s in forall x, is_break q s i x -> In x sp \/ In x cm.
Proof.
  induction s as [|c s IH]; intros i q OK NB; cbn [fw_scan].
  - intros x (a & b & E & LN & _ & (p & P)). symmetry in E. apply app_eq_nil in E as [-> ->].
    destruct P as [P|[P|P]]; apply (f_equal (@length ascii)) in P; rewrite app_length in P; cbn in P; lia.
  - pose proof (nobang_tail q c s NB) as NT. pose proof (okq_step q c OK) as OT.
    assert (TAIL : forall x, is_break q (c :: s) i x ->
        is_break (quote_from q [c]) s (S i) x \/ (quote_from q [c] = None /\ x = i /\ (c = " "%char \/ c = ","%char)) \/
        (quote_from q (L "//") = None /\ x = S i /\ c = "/"%char /\ exists r, s = "/"%char :: r)).
    { intros x (a & b & E & LN & Q & SP). destruct a as [|d a].
      - destruct SP as (p & P). destruct P as [P|[P|P]]; apply (f_equal (@length ascii)) in P; rewrite app_length in P; cbn in P; lia.
      - cbn in E. injection E as <- ->. change (c :: a) with ([c] ++ a) in Q. rewrite quote_app in Q. cbn [length] in LN.
        apply sep_cons in SP as [[-> C]|[(-> & ->)|SP]].
        + right; left. cbn in LN. split; auto. split; [lia|auto].
        + right; right. cbn in LN. split; [change (L "//") with (["/"%char] ++ L "/"); rewrite quote_app; exact Q|]. split; [lia|]. split; auto. exists b. reflexivity.
        + left. exists a, b. split; auto. split; [lia|]. auto. }
    destruct q as [k|].
    + cbn [quote_from] in NT, OT. specialize (IH (S i) _ OT NT). destruct (fw_scan cs isc (S i) _ s) as [[sp cm] ic].
      intros x X. apply TAIL in X as [X|[(Q & _ & C)|(Q & _ & -> & _)]]; [now apply IH| |].
      * destruct OK as [->| ->], C as [->| ->]; discriminate.
      * destruct OK as [->| ->]; discriminate.
    + cbn [quote_from] in NT, OT. destruct (Ascii.eqb c "'" || Ascii.eqb c """") eqn:Q.
      * specialize (IH (S i) _ OT NT). destruct (fw_scan cs isc (S i) _ s) as [[sp cm] ic].
        intros x X. apply TAIL in X as [X|[(QQ & _ & C)|(QQ & _ & -> & _)]]; [|destruct C as [->| ->]; discriminate|discriminate].
        cbn [quote_from] in X. rewrite Q in X. now apply IH.
      * destruct (Ascii.eqb_spec c "!") as [->|NE]; [exfalso; apply (NB [] "!"%char s); auto|].
        specialize (IH (S i) _ OT NT). destruct (fw_scan cs isc (S i) _ s) as [[sp cm] ic].
        assert (REST : forall x, is_break None (c :: s) i x -> (In x sp \/ In x cm) \/ (x = i /\ (c = " "%char \/ c = ","%char)) \/
                        (x = S i /\ c = "/"%char /\ exists r, s = "/"%char :: r)).
        { intros x X. apply TAIL in X. cbn [quote_from] in X. rewrite Q in X.
          destruct X as [X|[(_ & -> & C)|(_ & -> & -> & r & ->)]]; eauto 6. }
        destruct (Ascii.eqb_spec c " ") as [->|N1]; [|destruct (Ascii.eqb_spec c ",") as [->|N2]].
        -- intros x X. apply REST in X as [[X|X]|[(-> & _)|(_ & [=] & _)]]; cbn; auto.
        -- intros x X. apply REST in X as [[X|X]|[(-> & _)|(_ & [=] & _)]]; cbn; auto.
        -- destruct (startswith (L "//") (c :: s)) eqn:SL; intros x X;
             apply REST in X as [[X|X]|[(_ & [X|X])|(-> & -> & r & ->)]]; cbn in *; auto; congruence.
Qed.

(* ---- the best break ---- *)
Lemma max_below_some last l b : max_below last l = Some b -> In b l /\ 0 < b < last.
Proof.
  revert b. induction l as [|x l IH]; cbn [max_below fold_right]; [discriminate|]. intros b. fold (max_below last l).
  destruct ((0 <? x) && (x <? last)) eqn:E.
  - apply andb_true_iff in E as [E1 E2]. apply Nat.ltb_lt in E1, E2. intros [= <-].
    destruct (max_below last l) as [y|]; [|split; [now left|lia]]. destruct (IH y eq_refl) as [I Y].
    destruct (Nat.max_spec x y) as [[_ ->]|[_ ->]]; split; cbn; auto; lia.
  - intros H. destruct (IH b H). split; [now right|auto].
Qed.
Lemma max_below_none last l : max_below last l = None -> forall x, In x l -> ~ 0 < x < last.
Proof.
  induction l as [|y l IH]; cbn [max_below fold_right]; [intros _ x []|]. fold (max_below last l).
  destruct ((0 <? y) && (y <? last)) eqn:E; [discriminate|]. intros H x [<-|I]; auto.
  intros [A B]. apply Nat.ltb_lt in A, B. rewrite A, B in E. discriminate.
Qed.
Lemma best_spec w l : fw_fill w < fw_max w ->
  (In (find_best_break w l) l /\ 0 < find_best_break w l < fw_max w) \/
  (find_best_break w l = S (fw_max w) /\ forall x, In x l -> ~ 0 < x < fw_max w).
Proof.
  intros F. unfold find_best_break. destruct (max_below (fw_fill w) l) as [b|] eqn:E.
  - apply max_below_some in E as [I B]. replace (fw_max w <? b) with false by (symmetry; apply Nat.ltb_ge; lia). cbn [andb]. left. split; [auto|lia].
  - apply Nat.ltb_lt in F. rewrite F. destruct (max_below (fw_max w) l) as [b|] eqn:E2.
    + left. now apply max_below_some.
    + right. split; auto. now apply max_below_none.
Qed.

(* ---- text ---- *)
Lemma strip_parts s : strip s = s -> s = [] \/ (exists c t, s = c :: t /\ is_space c = false) /\ exists t c, s = t ++ [c] /\ is_space c = false.
Proof.
  intros H. destruct s as [|c t] eqn:ES; [now left|]. right. rewrite <- ES in *. unfold strip in H. split.
  - exists c, t. split; auto. destruct (lstrip s) as [|d r] eqn:E.
    + rewrite ES in H. discriminate H.
    + assert (D : is_space d = false) by (now apply dropwhile_hd in E).
      unfold rstrip in H. destruct (dropwhile_app is_space (rev (d :: r))) as (p & P & _). apply (f_equal (@rev ascii)) in P.
      rewrite rev_involutive, rev_app_distr, H in P. rewrite ES in P. cbn in P. injection P as P _. now subst d.
  - unfold rstrip in H. destruct (dropwhile is_space (rev (lstrip s))) as [|d r] eqn:E.
    + rewrite ES in H. discriminate H.
    + apply dropwhile_hd in E. exists (rev r), d. split; auto.
Qed.
Lemma rstrip_nonblank t c : is_space c = false -> rstrip (t ++ [c]) = t ++ [c].
Proof. intros H. unfold rstrip. rewrite rev_app_distr. cbn. rewrite H. cbn. now rewrite rev_involutive. Qed.
Lemma lstrip_blank w b : blank w -> lstrip (w ++ b) = lstrip b.
Proof. induction w as [|c w IH]; intros B; auto. unfold lstrip in *. cbn. rewrite (B c) by now left. apply IH. intros d D. apply B. now right. Qed.
Lemma lstrip_split b : exists w, blank w /\ b = w ++ lstrip b.
Proof.
  unfold lstrip. destruct (dropwhile_app is_space b) as (p & P & F). exists p. split; auto. intros c I.
  rewrite forallb_forall in F. now apply F.
Qed.
Lemma lstrip_head b c t : lstrip b = c :: t -> is_space c = false.
Proof. intros H. now apply dropwhile_hd in H. Qed.
