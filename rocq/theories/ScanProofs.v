(* ScanProofs.v: scanning and merging. *)
From Verif Require Import Base PyStr LineModel LineSpec LineProofs PreprocModel ScanModel ScanSpec.
Open Scope nat_scope.
Open Scope list_scope.

Definition ctx_q (q : option ascii) : ctx := match q with Some c => Quote c | None => Code end.
Definition good_q (q : option ascii) : Prop := q = None \/ q = Some squote \/ q = Some dquote.
Lemma before_0 x s : ctx_before x s 0 = x. Proof. reflexivity. Qed.
Lemma before_S x c t p : ctx_before x (c :: t) (S p) = ctx_before (ctx_step x c) t p. Proof. reflexivity. Qed.
Lemma before_comment s p : ctx_before Comment s p = Comment. Proof. apply comment_stays. Qed.
Lemma forallb_blank s : forallb is_space s = true <-> blank s. Proof. apply forallb_forall. Qed.
Lemma cont_ok_spec t : cont_ok t = true <-> ends_here t.
Proof.
  unfold cont_ok, ends_here. destruct (dropwhile_app is_space t) as (p & E & P). apply forallb_blank in P. split.
  - intros H. exists p. split; auto. destruct (dropwhile is_space t) as [|c r] eqn:D; [left; now rewrite E, app_nil_r|]. apply Ascii.eqb_eq in H. subst c. right. eauto.
  - intros (b & B & H).
    assert (X : forall r, (r = [] \/ exists r', r = "!"%char :: r') -> dropwhile is_space (b ++ r) = r).
    { clear E P p H. intros r R. induction b as [|a b IH]; cbn.
      - destruct R as [-> |(r' & ->)]; reflexivity.
      - rewrite (B a) by now left. apply IH. intros c I. apply B. now right. }
    destruct H as [-> |(r & ->)].
    + rewrite <- (app_nil_r b) at 1. rewrite X by auto. reflexivity.
    + rewrite X by eauto. reflexivity.
Qed.
(* a text after which the line ends holds no ampersand in code *)
Lemma ends_no_amp t p : ends_here t -> nth_error t p = Some "&"%char -> ctx_before Code t p = Comment.
Proof.
  intros (b & B & H) N. assert (X : forall r q, nth_error (b ++ r) q = Some "&"%char -> exists q', q = length b + q' /\ nth_error r q' = Some "&"%char /\ ctx_before Code (b ++ r) q = ctx_before Code r q').
  { clear H N. induction b as [|a b IH]; intros r q N; cbn [app] in *; [exists q; auto|]. destruct q as [|q]; cbn in N.
    - assert (a = "&"%char) by congruence. subst a. specialize (B "&"%char (or_introl eq_refl)). discriminate.
    - destruct (IH (fun c I => B c (or_intror I)) r q N) as (q' & -> & N' & E). exists q'. split; [reflexivity|]. split; auto. rewrite before_S.
      replace (ctx_step Code a) with Code; auto. specialize (B a (or_introl eq_refl)). cbn.
      destruct (Ascii.eqb_spec a "'"); [subst; discriminate|]. destruct (Ascii.eqb_spec a """"); [subst; discriminate|]. destruct (Ascii.eqb_spec a "!"); [subst; discriminate|]. reflexivity. }
  destruct H as [-> |(r & ->)].
  - rewrite <- (app_nil_r b) in N. apply X in N as (q' & _ & N & _). destruct q'; discriminate.
  - apply X in N as (q' & _ & N & ->). destruct q' as [|q']; [discriminate|]. rewrite before_S. cbn. apply before_comment.
Qed.

Definition shift_res (i : nat) (co : option nat) (o : option nat) : option nat := match o with Some p => Some (i + p) | None => co end.

(* prepending a character *)
Definition succ_o (o : option nat) : option nat := option_map S o.
Lemma succ_iff (o : option nat) (P : nat -> Prop) : ~ P 0 -> (forall p, o = Some p <-> P (S p)) -> forall p, succ_o o = Some p <-> P p.
Proof.
  intros N H p. destruct o as [k|]; cbn.
  - split; [intros [= <-]; now apply H|]. intros Q. destruct p; [contradiction|]. apply H in Q. now injection Q as ->.
  - split; [discriminate|]. intros Q. destruct p; [contradiction|]. apply H in Q. discriminate.
Qed.

Definition pred_o (o : option nat) : option nat := match o with Some (S k) => Some k | _ => None end.
Lemma pred_iff (o : option nat) (P : nat -> Prop) : ~ P 0 -> (forall p, o = Some p <-> P p) -> o = succ_o (pred_o o) /\ forall p, pred_o o = Some p <-> P (S p).
Proof.
  intros N H. destruct o as [[|k]|]; cbn.
  - exfalso. apply N. now apply H.
  - split; auto. intros p. rewrite <- H. split; congruence.
  - split; auto. intros p. rewrite <- H. split; discriminate.
Qed.
Lemma nth_S {A} (c : A) t p : nth_error (c :: t) (S p) = nth_error t p. Proof. reflexivity. Qed.
Lemma scanned_cons x c t co cm x' : ~ (c = "!"%char /\ x = Code) -> ~ (c = "&"%char /\ (x = Code \/ (in_quote x /\ t = []))) ->
  scanned x (c :: t) co cm x' <-> exists co1 cm1, co = succ_o co1 /\ cm = succ_o cm1 /\ scanned (ctx_step x c) t co1 cm1 x'.
Proof.
  intros N1 N2.
  assert (A1 : ~ (nth_error (c :: t) 0 = Some "!"%char /\ ctx_before x (c :: t) 0 = Code)) by (cbn; intros [[= ->] ->]; apply N1; auto).
  assert (A2 : ~ (nth_error (c :: t) 0 = Some "&"%char /\ (ctx_before x (c :: t) 0 = Code \/ in_quote (ctx_before x (c :: t) 0) /\ 1 = length (c :: t)))).
  { rewrite before_0. intros [[= ->] H]. apply N2. split; auto. destruct H as [H|[H K]]; auto. right. split; auto. destruct t; [auto|discriminate]. }
  split.
  - intros [H1 H2 H3 H4].
    destruct (pred_iff cm (fun p => nth_error (c :: t) p = Some "!"%char /\ ctx_before x (c :: t) p = Code) A1 H1) as [E1 F1].
    destruct (pred_iff co (fun p => nth_error (c :: t) p = Some "&"%char /\ (ctx_before x (c :: t) p = Code \/ in_quote (ctx_before x (c :: t) p) /\ S p = length (c :: t))) A2 H2) as [E2 F2].
    exists (pred_o co), (pred_o cm). split; auto. split; auto. constructor.
    + intros p. rewrite F1. reflexivity.
    + intros p. rewrite F2, nth_S, before_S. cbn [length]. intuition.
    + intros p K1 K2. apply (H3 (S p)); auto.
    + exact H4.
  - intros (co1 & cm1 & -> & -> & [H1 H2 H3 H4]). constructor.
    + apply (succ_iff cm1 (fun p => nth_error (c :: t) p = Some "!"%char /\ ctx_before x (c :: t) p = Code) A1). intros p. rewrite H1. reflexivity.
    + apply (succ_iff co1 (fun p => nth_error (c :: t) p = Some "&"%char /\ (ctx_before x (c :: t) p = Code \/ in_quote (ctx_before x (c :: t) p) /\ S p = length (c :: t))) A2).
      intros p. rewrite H2, nth_S, before_S. cbn [length]. intuition.
    + intros [|p] K1 K2; [|apply (H3 p); auto]. exfalso. apply A2. split; auto.
    + exact H4.
Qed.
Lemma scanned_nil x co cm x' : x <> Comment -> scanned x [] co cm x' <-> co = None /\ cm = None /\ x' = x.
Proof.
  intros N. split.
  - intros [H1 H2 H3 H4]. split; [|split].
    + destruct co as [k|]; auto. destruct (proj1 (H2 k) eq_refl) as [K _]. destruct k; discriminate.
    + destruct cm as [k|]; auto. destruct (proj1 (H1 k) eq_refl) as [K _]. destruct k; discriminate.
    + rewrite H4. cbn. destruct x; congruence.
  - intros (-> & -> & ->). constructor.
    + intros p. split; [discriminate|]. intros [K _]. destruct p; discriminate.
    + intros p. split; [discriminate|]. intros [K _]. destruct p; discriminate.
    + intros p K. destruct p; discriminate.
    + cbn. destruct x; congruence.
Qed.
Lemma scanned_bang t co cm x' : scanned Code ("!"%char :: t) co cm x' <-> co = None /\ cm = Some 0 /\ x' = Code.
Proof.
  split.
  - intros [H1 H2 H3 H4]. split; [|split].
    + destruct co as [[|k]|]; auto; [destruct (proj1 (H2 0) eq_refl) as [K _]; discriminate|]. destruct (proj1 (H2 (S k)) eq_refl) as [_ K]. rewrite before_S in K. cbn in K. rewrite before_comment in K.
      destruct K as [K|[(q & K) _]]; discriminate.
    + apply H1. auto.
    + rewrite H4. cbn [length]. rewrite before_S. cbn. now rewrite before_comment.
  - intros (-> & -> & ->). constructor.
    + intros [|p]; cbn [nth_error]; [tauto|]. rewrite before_S. cbn [ctx_step]. cbn. rewrite before_comment. split; [discriminate|]. intros [_ K]. discriminate.
    + intros p. split; [discriminate|]. intros [K1 K]. destruct p; [discriminate|]. rewrite before_S in K. cbn in K. rewrite before_comment in K. destruct K as [K|[(q & K) _]]; discriminate.
    + intros [|p] K1 K2; [discriminate|]. rewrite before_S in K2. cbn in K2. rewrite before_comment in K2. discriminate.
    + cbn [length]. rewrite before_S. cbn. now rewrite before_comment.
Qed.
Lemma scanned_amp t co cm x' : scanned Code ("&"%char :: t) co cm x' <->
  ends_here t /\ co = Some 0 /\ exists cm1, cm = succ_o cm1 /\ scanned Code t None cm1 x'.
Proof.
  assert (A1 : ~ (nth_error ("&"%char :: t) 0 = Some "!"%char /\ ctx_before Code ("&"%char :: t) 0 = Code)) by (intros [K _]; discriminate).
  split.
  - intros [H1 H2 H3 H4]. assert (EH : ends_here t) by (apply (H3 0); auto). split; auto. split; [apply H2; auto|].
    destruct (pred_iff cm (fun p => nth_error ("&"%char :: t) p = Some "!"%char /\ ctx_before Code ("&"%char :: t) p = Code) A1 H1) as [E1 F1].
    exists (pred_o cm). split; auto. constructor.
    + intros p. rewrite F1. reflexivity.
    + intros p. split; [discriminate|]. intros [K1 K2]. rewrite (ends_no_amp t p EH K1) in K2. destruct K2 as [K|[(q & K) _]]; discriminate.
    + intros p K1 K2. rewrite (ends_no_amp t p EH K1) in K2. discriminate.
    + exact H4.
  - intros (EH & -> & cm1 & -> & [H1 H2 H3 H4]). constructor.
    + apply (succ_iff cm1 (fun p => nth_error ("&"%char :: t) p = Some "!"%char /\ ctx_before Code ("&"%char :: t) p = Code) A1). intros p. rewrite H1. reflexivity.
    + intros [|p]; [cbn; tauto|]. split; [discriminate|]. rewrite nth_S, before_S. intros [K1 K2]. change (ctx_step Code "&") with Code in K2.
      rewrite (ends_no_amp t p EH K1) in K2. destruct K2 as [K|[(q & K) _]]; discriminate.
    + intros [|p] K1 K2; [exact EH|]. rewrite nth_S in K1. rewrite before_S in K2. change (ctx_step Code "&") with Code in K2. rewrite (ends_no_amp t p EH K1) in K2. discriminate.
    + exact H4.
Qed.
Lemma scanned_amp_last q co cm x' : q <> "&"%char -> scanned (Quote q) ["&"%char] co cm x' <-> co = Some 0 /\ cm = None /\ x' = Quote q.
Proof.
  intros N. assert (E : ctx_step (Quote q) "&" = Quote q). { cbn [ctx_step]. destruct (Ascii.eqb_spec "&" q); [congruence|reflexivity]. }
  split.
  - intros [H1 H2 H3 H4]. split; [|split].
    + apply H2. split; auto. right. split; auto. exists q. reflexivity.
    + destruct cm as [[|[|k]]|]; auto; destruct (proj1 (H1 _) eq_refl) as [K _]; discriminate.
    + rewrite H4. cbn [length]. rewrite before_S, E. reflexivity.
  - intros (-> & -> & ->). constructor.
    + intros [|[|p]]; (split; [discriminate|]); intros [K1 K2]; discriminate.
    + intros [|[|p]]; cbn; (split; [intros K; try discriminate K|intros [K1 K2]; try discriminate K1; auto]). split; auto. right. split; auto. exists q. reflexivity.
    + intros [|[|p]] K1 K2; discriminate.
    + cbn [length]. rewrite before_S, E. reflexivity.
Qed.
Lemma shift_succ i co0 o : shift_res i co0 (succ_o o) = shift_res (S i) co0 o.
Proof. destruct o; cbn; auto; f_equal; lia. Qed.
Lemma map_succ i o : option_map (Nat.add i) (succ_o o) = option_map (Nat.add (S i)) o.
Proof. destruct o; cbn; auto; f_equal; lia. Qed.

Lemma space_not c k : is_space c = true -> is_space k = false -> c <> k. Proof. congruence. Qed.
Lemma step_space x c : is_space c = true -> (forall q, x = Quote q -> is_space q = false) -> ctx_step x c = x.
Proof.
  intros H HQ. destruct x as [|q|]; cbn [ctx_step]; auto.
  - destruct (Ascii.eqb_spec c "'"); [subst; discriminate|]. destruct (Ascii.eqb_spec c """"); [subst; discriminate|]. destruct (Ascii.eqb_spec c "!"); [subst; discriminate|]. reflexivity.
  - destruct (Ascii.eqb_spec c q); auto. subst. rewrite (HQ q eq_refl) in H. discriminate.
Qed.
Lemma good_space q k : good_q q -> ctx_q q = Quote k -> is_space k = false /\ k <> "&"%char.
Proof. intros [-> |[-> | ->]] [= <-]; split; try reflexivity; discriminate. Qed.
Lemma ctx_q_nc q : ctx_q q <> Comment. Proof. destruct q; discriminate. Qed.
Lemma ctx_q_inj a b : ctx_q a = ctx_q b -> a = b. Proof. destruct a, b; cbn; congruence. Qed.
(* the loop, one character further *)
Lemma loop_step s i q q1 co0 c co q' cm : good_q q1 -> ctx_step (ctx_q q) c = ctx_q q1 -> ~ (c = "!"%char /\ q = None) -> ~ (c = "&"%char /\ (q = None \/ s = [])) ->
  (forall i q co0, good_q q -> forall co q' cm, scan_loop i q co0 s = Ok (co, q', cm) <->
     exists co1 cm1, scanned (ctx_q q) s co1 cm1 (ctx_q q') /\ good_q q' /\ co = shift_res i co0 co1 /\ cm = option_map (Nat.add i) cm1) ->
  scan_loop (S i) q1 co0 s = Ok (co, q', cm) <->
    exists co1 cm1, scanned (ctx_q q) (c :: s) co1 cm1 (ctx_q q') /\ good_q q' /\ co = shift_res i co0 co1 /\ cm = option_map (Nat.add i) cm1.
Proof.
  intros G1 E N1 N2 IH. rewrite (IH (S i) q1 co0 G1).
  assert (M1 : ~ (c = "!"%char /\ ctx_q q = Code)) by (intros [A B]; apply N1; split; auto; destruct q; [discriminate|auto]).
  assert (M2 : ~ (c = "&"%char /\ (ctx_q q = Code \/ (in_quote (ctx_q q) /\ s = [])))).
  { intros [A [B|[_ B]]]; apply N2; split; auto. left. destruct q; [discriminate|auto]. }
  split.
  - intros (co1 & cm1 & S1 & GQ & -> & ->). exists (succ_o co1), (succ_o cm1). split; [|split; [auto|split]].
    + apply (scanned_cons (ctx_q q) c s); auto. exists co1, cm1. rewrite E. auto.
    + symmetry. apply shift_succ.
    + symmetry. apply map_succ.
  - intros (co2 & cm2 & S2 & GQ & -> & ->). apply (scanned_cons (ctx_q q) c s) in S2; auto. destruct S2 as (co1 & cm1 & -> & -> & S1). rewrite E in S1.
    exists co1, cm1. split; auto. split; auto. split; [apply shift_succ|apply map_succ].
Qed.
Lemma scan_loop_spec s : forall i q co0, good_q q -> forall co q' cm,
  scan_loop i q co0 s = Ok (co, q', cm) <->
  exists co1 cm1, scanned (ctx_q q) s co1 cm1 (ctx_q q') /\ good_q q' /\ co = shift_res i co0 co1 /\ cm = option_map (Nat.add i) cm1.
Proof.
  induction s as [|c t IH]; intros i q co0 G co q' cm; cbn [scan_loop].
  - split.
    + intros [= <- <- <-]. exists None, None. split; [apply scanned_nil; [apply ctx_q_nc|auto]|]. auto.
    + intros (co1 & cm1 & S1 & G' & -> & ->). apply scanned_nil in S1 as (-> & -> & E); [|apply ctx_q_nc]. apply ctx_q_inj in E. subst. reflexivity.
  - destruct (is_space c) eqn:SP.
    { apply loop_step; auto.
      - apply step_space; auto. intros k Hk. now apply (good_space q).
      - intros [-> _]. discriminate.
      - intros [-> _]. discriminate. }
    destruct q as [k|].
    + assert (GK : is_space k = false /\ k <> "&"%char) by now apply (good_space (Some k)). destruct GK as [_ GK].
      destruct (Ascii.eqb_spec c k) as [-> |NE].
      { apply loop_step; auto.
        - now left.
        - cbn. now rewrite Ascii.eqb_refl.
        - intros [_ A]. discriminate.
        - intros [A _]. congruence. }
      assert (ST : ctx_step (ctx_q (Some k)) c = ctx_q (Some k)) by (cbn; destruct (Ascii.eqb_spec c k); congruence).
      destruct (Ascii.eqb_spec c "&") as [-> |NA].
      * destruct t as [|c2 t].
        -- cbn [scan_loop]. split.
           ++ intros [= <- <- <-]. exists (Some 0), None. split; [apply scanned_amp_last; auto|]. split; auto. split; auto. cbn. f_equal. lia.
           ++ intros (co1 & cm1 & S1 & G' & -> & ->). apply scanned_amp_last in S1 as (-> & -> & E); auto. destruct q' as [k'|]; [|discriminate]. injection E as ->. cbn. rewrite Nat.add_0_r. reflexivity.
        -- apply loop_step; auto.
           ++ intros [A _]. discriminate.
           ++ intros [_ [A|A]]; discriminate.
      * apply loop_step; auto.
        -- intros [_ A]. discriminate.
        -- intros [A _]. congruence.
    + destruct (Ascii.eqb_spec c squote) as [-> |N1].
      { apply loop_step; auto; [right; now left| |]; intros [A _]; discriminate. }
      destruct (Ascii.eqb_spec c dquote) as [-> |N2].
      { apply loop_step; auto; [right; now right| |]; intros [A _]; discriminate. }
      destruct (Ascii.eqb_spec c "!") as [-> |N3].
      { split.
        - intros [= <- <- <-]. exists None, (Some 0). split; [apply scanned_bang; auto|]. split; auto. split; auto. cbn. f_equal. lia.
        - intros (co1 & cm1 & S1 & G' & -> & ->). apply scanned_bang in S1 as (-> & -> & E). destruct q'; [discriminate|]. cbn. rewrite Nat.add_0_r. reflexivity. }
      destruct (Ascii.eqb_spec c "&") as [-> |N4].
      { destruct (cont_ok t) eqn:CO.
        - apply cont_ok_spec in CO. rewrite (IH (S i) None (Some i) G). split.
          + intros (co1 & cm1 & S1 & G' & -> & ->). assert (co1 = None).
            { destruct co1 as [p|]; auto. destruct S1 as [_ H2 _ _]. destruct (proj1 (H2 p) eq_refl) as [K1 K2]. change (ctx_q None) with Code in K2. rewrite (ends_no_amp t p CO K1) in K2. destruct K2 as [K|[(z & K) _]]; discriminate. }
            subst co1. exists (Some 0), (succ_o cm1). split; [apply scanned_amp; split; auto; split; auto; exists cm1; auto|]. split; auto. split; [cbn; f_equal; lia|symmetry; apply map_succ].
          + intros (co1 & cm1 & S1 & G' & -> & ->). apply scanned_amp in S1 as (_ & -> & cm2 & -> & S1). exists None, cm2. split; auto. split; auto. split; [cbn; f_equal; lia|apply map_succ].
        - split; [discriminate|]. intros (co1 & cm1 & S1 & _). apply scanned_amp in S1 as (EH & _). apply cont_ok_spec in EH. congruence. }
      apply loop_step; auto.
      * cbn. destruct (Ascii.eqb_spec c "'"); [now elim N1|]. destruct (Ascii.eqb_spec c """"); [now elim N2|]. destruct (Ascii.eqb_spec c "!"); [congruence|]. reflexivity.
      * intros [A _]. congruence.
      * intros [A _]. congruence.
Qed.

Lemma take_blank line : blank (takewhile is_space line).
Proof. induction line as [|c t IH]; cbn; [intros ? []|]. destruct (is_space c) eqn:E; [|intros ? []]. intros x [<-|I]; auto. Qed.
Lemma lstrip_app b r : blank b -> lstrip (b ++ r) = lstrip r.
Proof. unfold lstrip. induction b as [|a b IH]; intros B; auto. cbn. rewrite (B a) by now left. apply IH. intros c I. apply B. now right. Qed.
Lemma lead_app b c r : blank b -> is_space c = false -> lead (b ++ c :: r) = length b.
Proof. unfold lead. intros B C. induction b as [|a b IH]; cbn; [now rewrite C|]. rewrite (B a) by now left. cbn. rewrite IH; auto. intros x I. apply B. now right. Qed.
Lemma lstrip_nil line : lstrip line = [] <-> blank line.
Proof.
  unfold lstrip. split.
  - intros H. destruct (dropwhile_app is_space line) as (p & E & P). rewrite H, app_nil_r in E. subst p. now apply forallb_blank.
  - intros B. induction line as [|a l IH]; auto. cbn. rewrite (B a) by now left. apply IH. intros c I. apply B. now right.
Qed.
Lemma lstrip_cons line c t : lstrip line = c :: t <-> exists b, line = b ++ c :: t /\ blank b /\ is_space c = false.
Proof.
  split.
  - unfold lstrip. intros H. destruct (dropwhile_app is_space line) as (p & E & P). exists p. rewrite H in E. split; auto. split; [now apply forallb_blank|]. now apply dropwhile_hd in H.
  - intros (b & -> & B & C). rewrite lstrip_app by auto. unfold lstrip. cbn. now rewrite C.
Qed.
Lemma opens_iff line k : opens line k <-> k = lead line /\ exists t, lstrip line = "&"%char :: t.
Proof.
  split.
  - intros (b & r & -> & B & ->). split; [symmetry; apply lead_app; auto|]. exists r. apply lstrip_cons. exists b. auto.
  - intros (-> & t & H). apply lstrip_cons in H as (b & -> & B & C). exists b, t. split; auto. split; auto. symmetry. now rewrite lead_app.
Qed.
Lemma flags_q s d x : flags s d x -> x = ctx_q (quote_of s d) /\ good_q (quote_of s d) /\ s && d = false.
Proof. intros [(-> & -> & ->)|[(-> & -> & ->)|(-> & -> & ->)]]; unfold good_q; cbn; auto. Qed.
Lemma q_flags s d : s && d = false -> flags s d (ctx_q (quote_of s d)).
Proof. unfold flags. destruct s, d; cbn; intros H; try discriminate; auto 6. Qed.
Lemma good_flags q : good_q q -> flags (is_q squote q) (is_q dquote q) (ctx_q q).
Proof. unfold flags. intros [-> |[-> | ->]]; cbn; auto 6. Qed.
Lemma flags_inj s d s' d' x : flags s d x -> flags s' d' x -> s = s' /\ d = d'.
Proof. unfold flags. intuition; subst; try discriminate; auto. Qed.
Lemma flags_quote s d x : flags s d x -> in_quote x <-> s || d = true.
Proof. intros [(-> & -> & ->)|[(-> & -> & ->)|(-> & -> & ->)]]; cbn; split; auto; try (intros (q & H); discriminate); try discriminate; eexists; reflexivity. Qed.
Lemma is_some_none {A} (o : option A) : is_some o = false <-> o = None. Proof. destruct o; cbn; split; congruence. Qed.
Lemma opt_fun (a b : option nat) : (forall k, a = Some k <-> b = Some k) -> a = b.
Proof. intros H. destruct a as [x|]; [symmetry; now apply H|]. destruct b as [y|]; auto. now apply H. Qed.
Lemma shift_none i o : shift_res i None o = option_map (Nat.add i) o. Proof. destruct o; reflexivity. Qed.
Lemma flags_some q : good_q q -> in_quote (ctx_q q) <-> is_some q = true.
Proof. intros _. destruct q; cbn; split; auto; try discriminate; [exists a; auto|intros (k & H); discriminate]. Qed.

Lemma scan_line line inc s d ci co s' d' cm :
  scan_free_line line inc s d = Ok (ci, co, s', d', cm) <->
  exists x x', flags s d x /\ flags s' d' x' /\ line_scan inc x line ci co cm x'.
Proof.
  unfold scan_free_line. split.
  - destruct ((s || d) && negb inc) eqn:C1; [discriminate|]. destruct (s && d) eqn:C2; [discriminate|].
    destruct (lstrip line) as [|c t] eqn:E; [discriminate|]. destruct (Ascii.eqb c "&" && negb inc) eqn:C3; [discriminate|].
    cbv zeta. remember (if Ascii.eqb c "&" then Some (lead line) else None) as ci0 eqn:CI.
    assert (CK : forall k, ci0 = Some k <-> opens line k).
    { intros k. rewrite opens_iff, E. subst ci0. destruct (Ascii.eqb_spec c "&") as [-> |NE].
      - split; [intros [= <-]; eauto|]. now intros [-> _].
      - split; [discriminate|]. intros [_ (t' & [= -> _])]. now elim NE. }
    change (match ci0 with Some k => S k | None => 0 end) with (after_in ci0).
    intros H. apply bind_ok in H as (((co1 & q) & cm1) & H & K). apply scan_loop_spec in H as (co2 & cm2 & S1 & G & -> & ->); [|apply (flags_q s d _ (q_flags s d C2))].
    destruct (is_some q && negb (is_some (shift_res (after_in ci0) None co2))) eqn:C4; [discriminate|]. injection K as <- <- <- <- <-.
    exists (ctx_q (quote_of s d)), (ctx_q q). split; [now apply q_flags|]. split; [now apply good_flags|].
    split; [intros B; apply lstrip_nil in B; congruence|]. split; [exact CK|]. split.
    { intros N. destruct inc; auto. rewrite CI in N. destruct (Ascii.eqb c "&"); [discriminate|congruence]. }
    split. { intros Q. apply (flags_quote s d _ (q_flags s d C2)) in Q. rewrite Q in C1. destruct inc; auto. }
    split. { exists co2, cm2. split; [exact S1|]. split; [apply shift_none|reflexivity]. }
    intros Q. apply flags_some in Q; auto. rewrite Q in C4. cbn [andb] in C4. destruct (shift_res (after_in ci0) None co2); [discriminate|discriminate].
  - intros (x & x' & F & F' & NB & CK & CI & IQ & (co1 & cm1 & S1 & -> & ->) & FQ). destruct (flags_q s d x F) as (-> & G & C2). destruct (flags_q s' d' x' F') as (EX & G' & _).
    destruct ((s || d) && negb inc) eqn:C1.
    { exfalso. apply andb_prop in C1 as [A B]. apply (flags_quote s d _ F) in A. rewrite (IQ A) in B. discriminate. }
    rewrite C2. destruct (lstrip line) as [|c t] eqn:E; [apply lstrip_nil in E; contradiction|].
    assert (E0 : (if Ascii.eqb c "&" then Some (lead line) else None) = ci).
    { apply opt_fun. intros k. rewrite CK, opens_iff, E. destruct (Ascii.eqb_spec c "&") as [-> |NE].
      - split; [intros [= <-]; eauto|]. now intros [-> _].
      - split; [discriminate|]. intros [_ (t' & [= -> _])]. now elim NE. }
    destruct (Ascii.eqb c "&" && negb inc) eqn:C3.
    { exfalso. apply andb_prop in C3 as [A B]. rewrite A in E0. rewrite (CI ltac:(congruence)) in B. discriminate. }
    cbv zeta. rewrite E0. change (match ci with Some k => S k | None => 0 end) with (after_in ci).
    assert (SL : scan_loop (after_in ci) (quote_of s d) None (skipn (after_in ci) (rstrip line)) = Ok (option_map (Nat.add (after_in ci)) co1, quote_of s' d', option_map (Nat.add (after_in ci)) cm1)).
    { assert (ST : shift_res (after_in ci) None co1 = option_map (Nat.add (after_in ci)) co1) by apply shift_none. apply scan_loop_spec; auto. exists co1, cm1. rewrite <- EX. split; [exact S1|]. split; [exact G'|]. split; [now rewrite ST|reflexivity]. }
    rewrite SL. cbn [bind]. rewrite EX in *.
    destruct (is_some (quote_of s' d') && negb (is_some (option_map (Nat.add (after_in ci)) co1))) eqn:C4.
    { exfalso. apply andb_prop in C4 as [A B]. apply flags_some in A; auto. apply FQ in A. apply A. apply is_some_none. now apply negb_true_iff. }
    destruct (flags_inj _ _ _ _ _ F' (good_flags _ G')) as [<- <-]. reflexivity.
Qed.
