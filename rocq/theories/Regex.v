(* Regex.v: regular expressions as Python's re module reads them, restricted to what
   the repository uses: classes, concatenation, alternatives, repetition, no
   back-references and no anchors except a final "$".  Models no repository code.
   [re_full] decides whole-string matching by derivatives; [in_re] is the meaning. *)
From Verif Require Export PyStr.
Open Scope nat_scope.
Open Scope list_scope.

Inductive re :=
| Empty | Eps | Cls (f : ascii -> bool) | Cat (a b : re) | Alt (a b : re) | Star (a : re).

Inductive in_re : re -> str -> Prop :=
| IEps : in_re Eps []
| ICls f c : f c = true -> in_re (Cls f) [c]
| ICat a b s t : in_re a s -> in_re b t -> in_re (Cat a b) (s ++ t)
| IAltL a b s : in_re a s -> in_re (Alt a b) s
| IAltR a b s : in_re b s -> in_re (Alt a b) s
| IStar0 a : in_re (Star a) []
| IStarS a s t : in_re a s -> in_re (Star a) t -> in_re (Star a) (s ++ t).

(* derived forms: c, word, r?, r+, r{0,n} *)
Definition ch (c : ascii) : re := Cls (Ascii.eqb c).
Fixpoint word (s : str) : re := match s with [] => Eps | c :: t => Cat (ch c) (word t) end.
Definition chi (c : ascii) : re := Cls (fun x => Ascii.eqb (lower_c c) (lower_c x)).
Fixpoint wordi (s : str) : re := match s with [] => Eps | c :: t => Cat (chi c) (wordi t) end.
Definition opt (a : re) : re := Alt a Eps.
Definition plus (a : re) : re := Cat a (Star a).
Fixpoint upto (n : nat) (a : re) : re := match n with 0 => Eps | S k => opt (Cat a (upto k a)) end.

Fixpoint nullable (r : re) : bool :=
  match r with
  | Empty | Cls _ => false
  | Eps | Star _ => true
  | Cat a b => nullable a && nullable b
  | Alt a b => nullable a || nullable b
  end.
Fixpoint deriv (c : ascii) (r : re) : re :=
  match r with
  | Empty | Eps => Empty
  | Cls f => if f c then Eps else Empty
  | Cat a b => if nullable a then Alt (Cat (deriv c a) b) (deriv c b) else Cat (deriv c a) b
  | Alt a b => Alt (deriv c a) (deriv c b)
  | Star a => Cat (deriv c a) (Star a)
  end.
(* re.fullmatch *)
Fixpoint re_full (r : re) (s : str) : bool :=
  match s with [] => nullable r | c :: t => re_full (deriv c r) t end.
(* Python's "$" also matches just before a newline that ends the string *)
Definition drop_nl (s : str) : option str :=
  match rev s with c :: t => if Ascii.eqb c nl then Some (rev t) else None | [] => None end.
(* re.match(r + "$", s) *)
Definition re_dollar (r : re) (s : str) : bool :=
  re_full r s || match drop_nl s with Some t => re_full r t | None => false end.

(* ---- correctness of the matcher ---- *)
Lemma nullable_spec r : nullable r = true <-> in_re r [].
Proof.
  induction r as [| |f|a IHa b IHb|a IHa b IHb|a IHa]; cbn [nullable].
  - split; [discriminate|intros H; inversion H].
  - split; [constructor|auto].
  - split; [discriminate|intros H; inversion H].
  - rewrite andb_true_iff, IHa, IHb. split.
    + intros [A B]. apply (ICat a b [] []); auto.
    + intros H. inversion H as [| |a' b' s t A B E1 E2| | | |]; subst. apply app_eq_nil in E2 as [-> ->]. auto.
  - rewrite orb_true_iff, IHa, IHb. split.
    + intros [A|B]; [now apply IAltL|now apply IAltR].
    + intros H. inversion H; subst; auto.
  - split; auto. constructor.
Qed.
Lemma star_cons a c s : in_re (Star a) (c :: s) -> exists x y, s = x ++ y /\ in_re a (c :: x) /\ in_re (Star a) y.
Proof.
  remember (Star a) as r. remember (c :: s) as u. intros H. revert c s Hequ. induction H; intros c0 s0 E; try discriminate.
  injection Heqr as ->. destruct s as [|x s].
  - cbn in E. apply IHin_re2; auto.
  - injection E as -> <-. exists s, t. auto.
Qed.
Lemma in_re_empty s : ~ in_re Empty s. Proof. intros H. inversion H. Qed.
Lemma deriv_spec r : forall c s, in_re (deriv c r) s <-> in_re r (c :: s).
Proof.
  induction r as [| |f|a IHa b IHb|a IHa b IHb|a IHa]; intros c s; cbn [deriv].
  - split; intros H; inversion H.
  - split; intros H; inversion H.
  - destruct (f c) eqn:F; split; intros H.
    + inversion H; subst. now constructor.
    + inversion H; subst. constructor.
    + inversion H.
    + exfalso. inversion H as [|f' c' F' E1 E2| | | | |]. congruence.
  - assert (X : in_re (Cat (deriv c a) b) s <-> exists x y, s = x ++ y /\ in_re a (c :: x) /\ in_re b y).
    { split.
      - intros H. inversion H as [| |a' b' x y A B E1 E2| | | |]; subst. apply IHa in A. eauto.
      - intros (x & y & -> & A & B). constructor; auto. now apply IHa. }
    assert (Y : in_re (Cat a b) (c :: s) <-> (exists x y, s = x ++ y /\ in_re a (c :: x) /\ in_re b y) \/ (in_re a [] /\ in_re b (c :: s))).
    { split.
      - intros H. inversion H as [| |a' b' x y A B E1 E2| | | |]; subst. destruct x as [|x0 x]; cbn in E2.
        + subst y. auto.
        + injection E2 as -> <-. left. exists x, y. auto.
      - intros [(x & y & -> & A & B)|[A B]]; [apply (ICat a b (c :: x) y); auto|apply (ICat a b [] (c :: s)); auto]. }
    rewrite Y. destruct (nullable a) eqn:N.
    + apply nullable_spec in N. split.
      * intros H. inversion H; subst; [left; now apply X|right; split; auto; now apply IHb].
      * intros [H|[_ H]]; [apply IAltL; now apply X|apply IAltR; now apply IHb].
    + rewrite X. split; auto. intros [H|[H _]]; auto. apply nullable_spec in H. congruence.
  - split; intros H; inversion H; subst; try (apply IAltL; now apply IHa); apply IAltR; now apply IHb.
  - split; intros H.
    + inversion H as [| |a' b' x y A B E1 E2| | | |]; subst. apply IHa in A. apply (IStarS a (c :: x) y); auto.
    + apply star_cons in H as (x & y & -> & A & B). constructor; auto. now apply IHa.
Qed.
Lemma re_full_spec r s : re_full r s = true <-> in_re r s.
Proof. revert r. induction s as [|c s IH]; intros r; cbn [re_full]; [apply nullable_spec|]. rewrite IH. apply deriv_spec. Qed.

Lemma drop_nl_spec s t : drop_nl s = Some t <-> s = t ++ [nl].
Proof.
  unfold drop_nl. destruct (rev s) as [|c r] eqn:E.
  - split; [discriminate|]. intros ->. rewrite rev_app_distr in E. discriminate.
  - assert (S : s = rev r ++ [c]) by (rewrite <- (rev_involutive s), E; reflexivity). subst s.
    destruct (Ascii.eqb c nl) eqn:Q.
    + apply Ascii.eqb_eq in Q. subst c. split; [intros [= <-]; auto|]. intros H. apply app_inj_tail in H as [-> _]. reflexivity.
    + apply Ascii.eqb_neq in Q. split; [discriminate|]. intros H. apply app_inj_tail in H as [_ H]. contradiction.
Qed.
Lemma re_dollar_spec r s : re_dollar r s = true <-> in_re r s \/ exists t, s = t ++ [nl] /\ in_re r t.
Proof.
  unfold re_dollar. rewrite orb_true_iff, re_full_spec. destruct (drop_nl s) as [t|] eqn:D.
  - rewrite re_full_spec. apply drop_nl_spec in D. split; [intros [H|H]; eauto|]. intros [H|(t' & E & H)]; auto.
    right. subst s. apply app_inj_tail in E as [<- _]. exact H.
  - split; [intros [H|H]; [auto|discriminate]|]. intros [H|(t & E & _)]; auto. apply drop_nl_spec in E. congruence.
Qed.

(* ---- the meaning of the derived forms ---- *)
Lemma in_cls f s : in_re (Cls f) s <-> exists c, s = [c] /\ f c = true.
Proof. split; [intros H; inversion H; subst; eauto|intros (c & -> & F); now constructor]. Qed.
Lemma in_eps s : in_re Eps s <-> s = [].
Proof. split; [intros H; now inversion H|intros ->; constructor]. Qed.
Lemma in_cat a b s : in_re (Cat a b) s <-> exists x y, s = x ++ y /\ in_re a x /\ in_re b y.
Proof.
  split; [|intros (x & y & -> & A & B); now constructor].
  intros H. inversion H as [| |a' b' x y A B E1 E2| | | |]; subst. eauto.
Qed.
Lemma in_alt a b s : in_re (Alt a b) s <-> in_re a s \/ in_re b s.
Proof. split; [intros H; inversion H; subst; auto|intros [H|H]; [now apply IAltL|now apply IAltR]]. Qed.
Lemma in_opt a s : in_re (opt a) s <-> in_re a s \/ s = [].
Proof. unfold opt. now rewrite in_alt, in_eps. Qed.
Lemma in_ch c s : in_re (ch c) s <-> s = [c].
Proof.
  unfold ch. rewrite in_cls. split; [|intros ->; exists c; split; auto; apply Ascii.eqb_refl].
  intros (x & -> & E). apply Ascii.eqb_eq in E. now subst.
Qed.
Lemma in_word w s : in_re (word w) s <-> s = w.
Proof.
  revert s. induction w as [|c w IH]; intros s; cbn [word]; [apply in_eps|]. rewrite in_cat. split.
  - intros (x & y & -> & A & B). apply in_ch in A. apply IH in B. now subst.
  - intros ->. exists [c], w. split; auto. split; [now apply in_ch|now apply IH].
Qed.
Lemma in_wordi w s : in_re (wordi w) s <-> lower s = lower w.
Proof.
  revert s. induction w as [|c w IH]; intros s; cbn [wordi].
  - rewrite in_eps. split; [intros ->; auto|]. destruct s; [auto|discriminate].
  - rewrite in_cat. split.
    + intros (x & y & -> & A & B). apply in_cls in A as (d & -> & A). apply Ascii.eqb_eq in A. apply IH in B.
      cbn [app lower map] in *. unfold lower in *. congruence.
    + destruct s as [|d s]; [discriminate|]. cbn [lower map]. intros [= A B]. exists [d], s. split; auto. split.
      * apply in_cls. exists d. split; auto. apply Ascii.eqb_eq. auto.
      * now apply IH.
Qed.
Lemma in_star_cls f s : in_re (Star (Cls f)) s <-> forallb f s = true.
Proof.
  split.
  - remember (Star (Cls f)) as r. intros H. induction H; try discriminate; auto. injection Heqr as ->.
    apply in_cls in H as (c & -> & F). cbn [app forallb]. rewrite F. cbn. auto.
  - induction s as [|c s IH]; cbn [forallb]; [constructor|]. intros H. apply andb_true_iff in H as [H1 H2].
    change (c :: s) with ([c] ++ s). apply IStarS; auto. now constructor.
Qed.
Lemma in_plus_cls f s : in_re (plus (Cls f)) s <-> s <> [] /\ forallb f s = true.
Proof.
  unfold plus. rewrite in_cat. split.
  - intros (x & y & -> & A & B). apply in_cls in A as (c & -> & F). apply in_star_cls in B. split; [discriminate|]. cbn. now rewrite F.
  - destruct s as [|c s]; [intros [H _]; congruence|]. cbn [forallb]. intros [_ H]. apply andb_true_iff in H as [H1 H2].
    exists [c], s. split; auto. split; [now constructor|now apply in_star_cls].
Qed.
Lemma in_star a s : in_re (Star a) s <-> exists l, s = List.concat l /\ Forall (in_re a) l.
Proof.
  split.
  - remember (Star a) as r. intros H. induction H; try discriminate; injection Heqr as ->.
    + exists []. auto.
    + destruct IHin_re2 as (l & -> & F); auto. exists (s :: l). split; auto.
  - intros (l & -> & F). induction F; cbn; [constructor|]. now apply IStarS.
Qed.
Lemma in_upto n a s : in_re (upto n a) s <-> exists l, length l <= n /\ s = List.concat l /\ Forall (in_re a) l.
Proof.
  revert s. induction n as [|n IH]; intros s; cbn [upto].
  - rewrite in_eps. split; [intros ->; exists []; auto|]. intros (l & A & -> & _). destruct l; [auto|cbn in A; lia].
  - rewrite in_opt, in_cat. split.
    + intros [(x & y & -> & A & B)| ->]; [|exists []; cbn; split; auto; lia].
      apply IH in B as (l & L1 & -> & F). exists (x :: l). cbn. split; [lia|auto].
    + intros (l & L1 & -> & F). destruct F as [|x l X F]; [auto|]. left. exists x, (List.concat l). split; auto. split; auto.
      apply IH. exists l. cbn in L1. split; [lia|auto].
Qed.

(* re.match without "$": some prefix matches *)
Fixpoint re_prefix (r : re) (s : str) : bool :=
  nullable r || match s with [] => false | c :: t => re_prefix (deriv c r) t end.
Lemma re_prefix_spec r s : re_prefix r s = true <-> exists p q, s = p ++ q /\ in_re r p.
Proof.
  revert r. induction s as [|c s IH]; intros r; cbn [re_prefix].
  - rewrite orb_false_r, nullable_spec. split; [intros H; exists [], []; auto|]. intros (p & q & E & H). symmetry in E. apply app_eq_nil in E as [-> _]. exact H.
  - rewrite orb_true_iff, nullable_spec, IH. split.
    + intros [H|(p & q & -> & H)]; [exists [], (c :: s); auto|]. exists (c :: p), q. split; auto. now apply deriv_spec.
    + intros (p & q & E & H). destruct p as [|d p]; [auto|]. injection E as <- ->. right. exists p, q. split; auto. now apply deriv_spec.
Qed.
