(* ParenProps.v: property C21, balanced parenthesis search. *)
From Verif Require Import Regex PhaseModel CheckModel ParenSpec ParenProofs.
Open Scope nat_scope.
Open Scope list_scope.

Lemma check_eq s start error : check_balanced_paren s start error =
  match vloop (visible None (skipn start s)) start 0 None with
  | (Some b, None) => if error then Raise "CCPPError: Unbalanced parenthesis" else Ok (Some b, None)
  | r => Ok r
  end.
Proof. unfold check_balanced_paren. cbv zeta. rewrite loop_visible by auto. destruct (vloop _ start 0 None) as [[b|] [e|]]; reflexivity. Qed.
Lemma fp_app p c r : forallb (fun c => negb (is_paren c)) p = true -> is_paren c = true -> first_paren (p ++ c :: r) (length p) c.
Proof.
  intros F C. unfold first_paren. rewrite nth_error_app2, Nat.sub_diag by lia. split; auto. split; auto.
  intros k d K N. rewrite nth_error_app1 in N by auto. rewrite forallb_forall in F. apply nth_error_In in N. apply F in N. now apply negb_true_iff in N.
Qed.
Lemma fp_unique v b c b' c' : first_paren v b c -> first_paren v b' c' -> b = b' /\ c = c'.
Proof.
  intros (A & B & C) (A' & B' & C'). assert (b = b').
  { destruct (Nat.lt_trichotomy b b') as [X|[X|X]]; auto; exfalso; [rewrite (C' _ _ X A) in B|rewrite (C _ _ X A') in B']; discriminate. }
  subst. split; congruence.
Qed.
Lemma no_fp v b c : forallb (fun c => negb (is_paren c)) v = true -> ~ first_paren v b c.
Proof. intros F (A & B & _). rewrite forallb_forall in F. apply nth_error_In in A. apply F in A. rewrite B in A. discriminate. Qed.
(* what follows the first opening parenthesis *)
Lemma closes_after p r e : closes (p ++ "("%char :: r) (length p) e <->
  exists k, e = length p + S k /\ k < length r /\ (1 + height (firstn (S k) r) = 0)%Z /\ forall j, j < k -> (0 < 1 + height (firstn (S j) r))%Z.
Proof.
  unfold closes. rewrite app_length. cbn [length].
  assert (SK : skipn (length p) (p ++ "("%char :: r) = "("%char :: r) by (rewrite skipn_app, Nat.sub_diag, skipn_all; reflexivity).
  rewrite SK. split.
  - intros (A & B & C & D). exists (e - length p - 1). split; [lia|]. split; [lia|].
    replace (S e - length p) with (S (S (e - length p - 1))) in C by lia. split; [exact C|].
    intros j J. specialize (D (length p + S j) ltac:(lia) ltac:(lia)). replace (S (length p + S j) - length p) with (S (S j)) in D by lia. exact D.
  - intros (k & -> & K & C & D). split; [lia|]. split; [lia|]. split.
    + replace (S (length p + S k) - length p) with (S (S k)) by lia. exact C.
    + intros i I1 I2. destruct (Nat.eq_dec i (length p)) as [->|N].
      * replace (S (length p) - length p) with 1 by lia. cbn. lia.
      * specialize (D (i - length p - 1) ltac:(lia)). replace (S i - length p) with (S (S (i - length p - 1))) by lia. exact D.
Qed.

(* A pair is returned exactly when the first visible parenthesis opens and is closed
   there; positions count from the start of the string. *)
Theorem C21_found : forall s start error b e,
  check_balanced_paren s start error = Ok (Some b, Some e) <->
  start <= b /\ first_paren (visible None (skipn start s)) (b - start) "(" /\ closes (visible None (skipn start s)) (b - start) (e - start) /\ start <= e.
Proof.
  intros s start error b e. rewrite check_eq. set (v := visible None (skipn start s)).
  destruct (vloop_outside v start) as [(p & r & E & F & ->)|[(p & r & E & F & ->)|(F & ->)]].
  - pose proof (fp_app p "(" r F eq_refl) as FP. pose proof (vloop_inside r (start + S (length p)) 1 (Some (start + length p)) ltac:(lia)) as IN.
    destruct (vloop r (start + S (length p)) 1 (Some (start + length p))) as [b' [e'|]].
    + destruct IN as (-> & k & -> & K). split.
      * intros [= <- <-]. split; [lia|]. rewrite E. replace (start + length p - start) with (length p) by lia. split; auto. split; [|lia].
        apply closes_after. exists k. destruct K as (K1 & K2 & K3). split; [lia|auto].
      * rewrite E. intros (S1 & P & C & S2). destruct (fp_unique _ _ _ _ _ P FP) as [Q _]. assert (b = start + length p) by lia. subst b.
        rewrite Q in C. apply closes_after in C as (k' & E' & K'). assert (k' = k).
        { destruct K as (K1 & K2 & K3), K' as (K1' & K2' & K3'). destruct (Nat.lt_trichotomy k k') as [X|[X|X]]; auto; [specialize (K3' _ X)|specialize (K3 _ X)]; lia. }
        subst k'. do 2 f_equal. f_equal. lia.
    + destruct IN as (-> & J). split; [destruct error; discriminate|]. rewrite E. intros (S1 & P & C & S2). exfalso.
      destruct (fp_unique _ _ _ _ _ P FP) as [Q _]. rewrite Q in C. apply closes_after in C as (k & _ & K1 & K2 & _). specialize (J k K1). lia.
  - split; [discriminate|]. rewrite E. intros (_ & P & _). destruct (fp_unique _ _ _ _ _ P (fp_app p ")" r F eq_refl)). discriminate.
  - split; [discriminate|]. intros (_ & P & _). now apply no_fp in P.
Qed.
Print Assumptions C21_found.

(* Only the opening position is returned, or the error raised, exactly when it is never closed. *)
Theorem C21_unclosed : forall s start b,
  (check_balanced_paren s start false = Ok (Some b, None) <->
   start <= b /\ first_paren (visible None (skipn start s)) (b - start) "(" /\ forall e, ~ closes (visible None (skipn start s)) (b - start) e) /\
  ((exists x, check_balanced_paren s start true = Raise x) <-> exists b', check_balanced_paren s start false = Ok (Some b', None)).
Proof.
  intros s start b. rewrite !check_eq. set (v := visible None (skipn start s)). split.
  - destruct (vloop_outside v start) as [(p & r & E & F & ->)|[(p & r & E & F & ->)|(F & ->)]].
    + pose proof (fp_app p "(" r F eq_refl) as FP. pose proof (vloop_inside r (start + S (length p)) 1 (Some (start + length p)) ltac:(lia)) as IN.
      destruct (vloop r (start + S (length p)) 1 (Some (start + length p))) as [b' [e'|]].
      * destruct IN as (-> & k & -> & K). split; [discriminate|]. rewrite E. intros (S1 & P & N). exfalso. destruct (fp_unique _ _ _ _ _ P FP) as [Q _].
        apply (N (length p + S k)). rewrite Q. apply closes_after. exists k. auto.
      * destruct IN as (-> & J). split.
        -- intros [= <-]. split; [lia|]. rewrite E. replace (start + length p - start) with (length p) by lia. split; auto.
           intros e C. apply closes_after in C as (k & _ & K1 & K2 & _). specialize (J k K1). lia.
        -- rewrite E. intros (S1 & P & N). destruct (fp_unique _ _ _ _ _ P FP) as [Q _]. do 3 f_equal. lia.
    + split; [discriminate|]. rewrite E. intros (_ & P & _). destruct (fp_unique _ _ _ _ _ P (fp_app p ")" r F eq_refl)). discriminate.
    + split; [discriminate|]. intros (_ & P & _). now apply no_fp in P.
  - destruct (vloop v start 0 None) as [[b'|] [e|]]; split; intros (x & H); try discriminate; eauto.
Qed.
Print Assumptions C21_unclosed.

(* Nothing is reported exactly when there is no visible parenthesis, or the first one closes. *)
Theorem C21_none : forall s start error,
  check_balanced_paren s start error = Ok (None, None) <->
  ~ exists b, first_paren (visible None (skipn start s)) b "(".
Proof.
  intros s start error. rewrite check_eq. set (v := visible None (skipn start s)).
  destruct (vloop_outside v start) as [(p & r & E & F & ->)|[(p & r & E & F & ->)|(F & ->)]].
  - pose proof (fp_app p "(" r F eq_refl) as FP. pose proof (vloop_inside r (start + S (length p)) 1 (Some (start + length p)) ltac:(lia)) as IN.
    split; [|intros N; exfalso; apply N; rewrite E; eauto].
    destruct (vloop r (start + S (length p)) 1 (Some (start + length p))) as [b' [e'|]]; destruct IN as (-> & _); [discriminate|]. destruct error; discriminate.
  - split; auto. intros _ (b & P). rewrite E in P. destruct (fp_unique _ _ _ _ _ P (fp_app p ")" r F eq_refl)). discriminate.
  - split; auto. intros _ (b & P). now apply no_fp in P.
Qed.
Print Assumptions C21_none.

(* Characters in character context do not matter. *)
Theorem C21_quotes_hide : forall s s' start error,
  visible None (skipn start s) = visible None (skipn start s') ->
  check_balanced_paren s start error = check_balanced_paren s' start error.
Proof. intros s s' start error H. now rewrite !check_eq, H. Qed.
Print Assumptions C21_quotes_hide.

(* The claim "(-1,-1) only when there is no opening parenthesis" is false of the code:
   a closing parenthesis before it hides it. *)
Definition finds_the_first_opening : Prop := forall s b,
  nth_error (visible None s) b = Some "("%char -> check_balanced_paren s 0 false <> Ok (None, None).
Theorem C21_stray_closing_refuted : ~ finds_the_first_opening.
Proof. intros H. apply (H (L ") (a)") 2); reflexivity. Qed.
Print Assumptions C21_stray_closing_refuted.

Example C21_ex1 : check_balanced_paren (L "x = (foo('bar()', b(2)))") 0 true = Ok (Some 4, Some 23).
Proof. vm_compute. reflexivity. Qed.
Example C21_ex2 : check_balanced_paren (L "( (foo, bar) )") 1 true = Ok (Some 2, Some 11) /\
  check_balanced_paren (L "(foo('bar()')") 0 false = Ok (Some 0, None) /\ check_balanced_paren (L "foo") 0 true = Ok (None, None).
Proof. vm_compute. auto. Qed.
Example C21_ex3 : visible None (L "a('(' b)") = visible None (L "a(')' b)"). Proof. reflexivity. Qed.
