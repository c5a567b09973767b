From Verif Require Import Regex PhaseModel PhaseSpec PhaseProofs CheckModel CheckSpec.
Open Scope nat_scope.
Open Scope list_scope.

Lemma F2_len {A B} (R : A -> B -> Prop) l l' : Forall2 R l l' -> length l = length l'.
Proof. induction 1; cbn; auto. Qed.
Lemma dollar_no_nl r s : ~ ends_nl s -> re_dollar r s = true <-> in_re r s.
Proof. intros N. rewrite re_dollar_spec. split; [intros [H|(t & E & H)]; auto|auto]. exfalso. apply N. now exists t. Qed.
Lemma star_space s : in_re ws_re s <-> all_space s.
Proof. unfold ws_re. rewrite in_star_cls, forallb_forall. reflexivity. Qed.
Lemma star_digit s : in_re (Star (Cls is_digit)) s <-> all_digit s.
Proof. rewrite in_star_cls, forallb_forall. reflexivity. Qed.
Lemma plus_digit s : in_re (plus (Cls is_digit)) s <-> s <> [] /\ all_digit s.
Proof. rewrite in_plus_cls, forallb_forall. reflexivity. Qed.
Lemma plus_alpha s : in_re (plus (Cls is_alpha)) s <-> s <> [] /\ all_alpha s.
Proof. rewrite in_plus_cls, forallb_forall. reflexivity. Qed.

(* ---- units ---- *)
Lemma digit_19 c : in_range 49 57 c = true <-> is_digit c = true /\ c <> "0"%char.
Proof.
  split.
  - intros H. split; [|intros ->; vm_compute in H; discriminate]. revert H. destruct c as [[] [] [] [] [] [] [] []]; vm_compute; congruence.
  - intros [H N]. revert H N. destruct c as [[] [] [] [] [] [] [] []]; vm_compute; congruence.
Qed.
Lemma nlz_spec s : in_re nlz_re s <-> exists c t, s = c :: t /\ is_digit c = true /\ c <> "0"%char /\ all_digit t.
Proof.
  unfold nlz_re. rewrite in_cat. split.
  - intros (x & y & -> & A & B). apply in_cls in A as (c & -> & A). apply digit_19 in A as [A1 A2]. apply star_digit in B. exists c, y. auto.
  - intros (c & t & -> & A & B & C). exists [c], t. split; auto. split; [constructor; apply digit_19; auto|now apply star_digit].
Qed.
Lemma exponent_spec s : in_re exponent_re s <-> power s.
Proof.
  unfold exponent_re, power. rewrite in_alt, in_cat, nlz_spec. split.
  - intros [(x & y & -> & A & B)|(c & t & -> & A & B & C)].
    + apply in_ch in A. apply nlz_spec in B as (c & t & -> & B). exists [("-")%char], c, t. subst. split; auto.
    + exists [], c, t. auto.
  - intros (m & c & t & -> & [-> | ->] & A & B & C).
    + right. exists c, t. auto.
    + left. exists (L "-"), (c :: t). split; auto. split; [now apply in_ch|]. apply nlz_spec. exists c, t. auto.
Qed.
Lemma unit_re_spec s : in_re unit_re s <-> unit_term s.
Proof.
  unfold unit_re, unit_term, letters_re. rewrite in_cat. split.
  - intros (x & y & -> & A & B). apply plus_alpha in A as [A1 A2]. apply in_opt in B. rewrite exponent_spec in B. exists x, y. tauto.
  - intros (n & p & -> & A & B & C). exists n, p. split; auto. split; [now apply plus_alpha|]. apply in_opt. rewrite exponent_spec. tauto.
Qed.
Lemma unit_list_spec s : in_re (Cat unit_re (Star (Cat (Cls is_space) unit_re))) s <-> unit_expr s.
Proof.
  rewrite in_cat. split.
  - intros (x & y & -> & A & B). apply unit_re_spec in A. apply in_star in B as (l & -> & F). revert x A.
    induction F as [|z l Z F IH]; intros x A; cbn [List.concat].
    + rewrite app_nil_r. now constructor.
    + apply in_cat in Z as (u & v & -> & U & V). apply in_cls in U as (c & -> & U). apply unit_re_spec in V. cbn [app].
      apply UMore; auto.
  - induction 1 as [t T|t c r T C R (x & y & -> & X & Y)].
    + exists t, []. rewrite app_nil_r. split; auto. split; [now apply unit_re_spec|constructor].
    + exists t, (c :: x ++ y). split; auto. split; [now apply unit_re_spec|]. change (c :: x ++ y) with ((c :: x) ++ y). apply IStarS; auto.
      apply in_cat. exists [c], x. split; auto. split; [now constructor|exact X].
Qed.
Lemma dropwhile_none {A} (f : A -> bool) l : match l with x :: _ => f x = false | [] => True end -> dropwhile f l = l.
Proof. destruct l as [|x l]; auto. cbn. intros ->. reflexivity. Qed.
Lemma strip_no_nl s : ~ ends_nl (strip s).
Proof.
  intros (t & E). unfold strip, rstrip in E. apply (f_equal (@rev ascii)) in E. rewrite rev_involutive, rev_app_distr in E. cbn in E.
  apply dropwhile_hd in E. vm_compute in E. discriminate.
Qed.

Lemma strip_idem s : strip (strip s) = strip s.
Proof.
  unfold strip at 1. assert (A : lstrip (strip s) = strip s).
  { unfold lstrip. apply dropwhile_none. destruct (strip s) as [|c t] eqn:E; auto. unfold strip, rstrip in E.
    destruct (dropwhile_app is_space (rev (lstrip s))) as (p & P & _). apply (f_equal (@rev ascii)) in P.
    rewrite rev_involutive, rev_app_distr, E in P. cbn [app] in P. apply (dropwhile_hd is_space s c (t ++ rev p)). exact P. }
  rewrite A. unfold strip, rstrip. rewrite rev_involutive. f_equal. generalize (rev (lstrip s)). intros l.
  apply dropwhile_none. destruct (dropwhile is_space l) eqn:E; auto. now apply dropwhile_hd in E.
Qed.

(* ---- array references ---- *)
Lemma dim_re_spec s : in_re dim_re s <-> subscript s.
Proof. unfold dim_re, subscript. rewrite !in_alt, in_ch, plus_digit, fortran_id_spec. reflexivity. Qed.
Lemma padded_re s : (exists x y, s = x ++ y /\ all_space x /\ exists d z, y = d ++ z /\ subscript d /\ all_space z) <-> exists d, padded s d /\ subscript d.
Proof.
  split.
  - intros (x & y & -> & A & d & z & -> & D & Z). exists d. split; auto. exists x, z. auto.
  - intros (d & (a & b & -> & A & B) & D). exists a, (d ++ b). split; auto. split; auto. exists d, b. auto.
Qed.
Lemma repeat_spec s : in_re repeat_dim_re s <-> exists p d, s = ","%char :: p /\ padded p d /\ subscript d.
Proof.
  unfold repeat_dim_re. rewrite in_cat. split.
  - intros (x & y & -> & A & B). apply in_ch in A. subst x. apply in_cat in B as (u & v & -> & U & V). apply star_space in U.
    apply in_cat in V as (d & z & -> & D & Z). apply dim_re_spec in D. apply star_space in Z.
    exists (u ++ d ++ z), d. split; auto. split; auto. exists u, z. auto.
  - intros (p & d & -> & (a & b & -> & A & B) & D). exists [","%char], (a ++ d ++ b). split; auto. split; [now apply in_ch|].
    apply in_cat. exists a, (d ++ b). split; auto. split; [now apply star_space|]. apply in_cat. exists d, b. split; auto. split; [now apply dim_re_spec|now apply star_space].
Qed.
Lemma join_cons p ps : join (L ",") (p :: ps) = p ++ List.concat (map (fun q => ","%char :: q) ps).
Proof.
  revert p. induction ps as [|q ps IH]; intros p; cbn [map List.concat]; [cbn; now rewrite app_nil_r|].
  change (join (L ",") (p :: q :: ps)) with (p ++ L "," ++ join (L ",") (q :: ps)). rewrite IH. reflexivity.
Qed.
Lemma scalar_ref_spec s : in_re scalar_ref_re s <-> exists name dims, array_ref s name dims.
Proof.
  unfold scalar_ref_re. split.
  - intros H. apply in_cat in H as (name & s1 & -> & N & H). apply fortran_id_spec in N.
    apply in_cat in H as (w & s2 & -> & W & H). apply star_space in W.
    apply in_cat in H as (o & s3 & -> & O & H). apply in_ch in O. subst o.
    apply in_cat in H as (a & s4 & -> & A & H). apply star_space in A.
    apply in_cat in H as (d & s5 & -> & D & H). apply dim_re_spec in D.
    apply in_cat in H as (b & s6 & -> & B & H). apply star_space in B.
    apply in_cat in H as (m & c & -> & M & C). apply in_ch in C. subst c.
    apply in_upto in M as (l & LL & -> & F).
    assert (X : exists ps ds, l = map (fun q => ","%char :: q) ps /\ Forall2 padded ps ds /\ Forall subscript ds).
    { clear -F. induction F as [|x l X F (ps & ds & -> & F2 & FS)]; [exists [], []; auto|].
      apply repeat_spec in X as (p & d & -> & P & D). exists (p :: ps), (d :: ds). auto. }
    destruct X as (ps & ds & -> & F2 & FS). exists name, (d :: ds). split; auto. split; [constructor; auto|].
    split; [cbn; rewrite map_length in LL; apply F2_len in F2; unfold str in *; lia|].
    exists w, ((a ++ d ++ b) :: ps). split; auto. split; [constructor; auto; exists a, b; auto|].
    rewrite join_cons, <- !app_assoc. reflexivity.
  - intros (name & dims & N & FS & LD & w & ps & W & F2 & ->).
    destruct F2 as [|p d ps ds P F2]; [cbn in LD; lia|]. apply Forall_inv in FS as D. apply Forall_inv_tail in FS. rewrite join_cons.
    destruct P as (a & b & -> & A & B).
    apply in_cat. exists name. eexists. split; [reflexivity|]. split; [now apply fortran_id_spec|].
    apply in_cat. exists w. eexists. split; [reflexivity|]. split; [now apply star_space|].
    apply in_cat. exists (L "("). eexists. split; [reflexivity|]. split; [now apply in_ch|].
    rewrite <- !app_assoc.
    apply in_cat. exists a. eexists. split; [reflexivity|]. split; [now apply star_space|].
    apply in_cat. exists d. eexists. split; [reflexivity|]. split; [now apply dim_re_spec|].
    apply in_cat. exists b. eexists. split; [reflexivity|]. split; [now apply star_space|].
    apply in_cat. eexists. exists (L ")"). split; [reflexivity|]. split; [|now apply in_ch].
    apply in_upto. exists (map (fun q => ","%char :: q) ps). split; [rewrite map_length; apply F2_len in F2; cbn in LD; unfold str in *; lia|]. split; auto.
    clear -F2 FS. revert FS. induction F2 as [|p d ps ds P F2 IH]; intros FS; cbn [map]; constructor.
    + apply repeat_spec. exists p, d. split; auto. split; auto. now apply Forall_inv in FS.
    + apply IH. now apply Forall_inv_tail in FS.
Qed.

(* the tokens are the name and the subscripts *)
Lemma lstrip_all_space w s : all_space w -> lstrip (w ++ s) = lstrip s.
Proof. induction w as [|c w IH]; intros A; auto. cbn. rewrite (A c) by now left. apply IH. intros d D. apply A. now right. Qed.
Lemma rstrip_all_space w s : all_space w -> rstrip (s ++ w) = rstrip s.
Proof. intros A. unfold rstrip. rewrite rev_app_distr. f_equal. apply (lstrip_all_space (rev w)). intros c C. apply A. now apply in_rev. Qed.
Lemma strip_clean c t d u : c :: t = u ++ [d] -> is_space c = false -> is_space d = false -> strip (c :: t) = c :: t.
Proof.
  intros E C D. unfold strip, lstrip. cbn [dropwhile]. rewrite C. unfold rstrip. rewrite E at 1. rewrite rev_app_distr. cbn [rev app dropwhile].
  rewrite D. cbn [rev]. rewrite rev_involutive. symmetry. exact E.
Qed.
Lemma strip_inner s : (forall c, In c s -> is_space c = false) -> strip s = s.
Proof.
  intros H. destruct s as [|c t]; auto. destruct (@exists_last _ (c :: t)) as (u & d & E); [discriminate|].
  eapply strip_clean; eauto; apply H; [now left|]. rewrite E. apply in_app_iff. right. now left.
Qed.
Lemma strip_padded p d : padded p d -> (forall c, In c d -> is_space c = false) -> d <> [] -> strip p = d.
Proof.
  intros (a & b & -> & A & B) D N. unfold strip. rewrite lstrip_all_space by auto. 
  assert (E : lstrip (d ++ b) = d ++ b). { destruct d as [|c t]; [congruence|]. unfold lstrip. cbn. rewrite (D c) by now left. reflexivity. }
  rewrite E, rstrip_all_space by auto. pose proof (strip_inner d D) as Q. unfold strip in Q.
  assert (E2 : lstrip d = d). { destruct d as [|c t]; [congruence|]. unfold lstrip. cbn. rewrite (D c) by now left. reflexivity. }
  now rewrite E2 in Q.
Qed.
Lemma split_app sep a b : ~ In sep a -> split_on sep (a ++ sep :: b) = a :: split_on sep b.
Proof.
  induction a as [|c a IH]; intros N; cbn [app split_on]; [now rewrite Ascii.eqb_refl|].
  replace (Ascii.eqb c sep) with false by (symmetry; apply Ascii.eqb_neq; intros ->; apply N; now left).
  rewrite IH; [reflexivity|]. intros K. apply N. now right.
Qed.
Lemma split_none sep a : ~ In sep a -> split_on sep a = [a].
Proof.
  induction a as [|c a IH]; intros N; cbn [split_on]; auto.
  replace (Ascii.eqb c sep) with false by (symmetry; apply Ascii.eqb_neq; intros ->; apply N; now left).
  rewrite IH; [reflexivity|]. intros K. apply N. now right.
Qed.
Lemma split_join sep ps : ps <> [] -> (forall p, In p ps -> ~ In sep p) -> split_on sep (join [sep] ps) = ps.
Proof.
  induction ps as [|p ps IH]; intros N H; [congruence|]. destruct ps as [|q ps].
  - cbn. apply split_none. apply H. now left.
  - change (join [sep] (p :: q :: ps)) with (p ++ [sep] ++ join [sep] (q :: ps)). cbn [app]. rewrite split_app by (apply H; now left).
    rewrite IH; [reflexivity|discriminate|]. intros x X. apply H. now right.
Qed.
Lemma word_facts c : is_word c = true -> is_space c = false /\ c <> "("%char /\ c <> ")"%char /\ c <> ","%char.
Proof. destruct c as [[] [] [] [] [] [] [] []]; vm_compute; intros H; try discriminate H; (split; [reflexivity|split; [discriminate|split; discriminate]]). Qed.
Lemma space_facts c : is_space c = true -> c <> "("%char /\ c <> ")"%char /\ c <> ","%char.
Proof. destruct c as [[] [] [] [] [] [] [] []]; vm_compute; intros H; try discriminate H; (split; [discriminate|split; discriminate]). Qed.
Lemma fname_word n : fortran_name n -> n <> [] /\ forall c, In c n -> is_word c = true.
Proof.
  intros (c & t & -> & A & B). split; [discriminate|]. intros d [<-|D]; auto. unfold is_word. now rewrite A.
Qed.
Lemma subscript_facts d : subscript d -> d <> [] /\ forall c, In c d -> is_space c = false /\ c <> "("%char /\ c <> ")"%char /\ c <> ","%char.
Proof.
  intros [F|[->|[N D]]].
  - apply fname_word in F as [F1 F2]. split; auto. intros c C. apply word_facts. auto.
  - split; [discriminate|]. intros c [<-|[]]. split; auto. split; [|split]; discriminate.
  - split; auto. intros c C. apply word_facts. unfold is_word. rewrite (D c C). now rewrite orb_true_r.
Qed.
Lemma padded_facts p d : padded p d -> subscript d -> forall c, In c p -> c <> "("%char /\ c <> ")"%char /\ c <> ","%char.
Proof.
  intros (a & b & -> & A & B) S c C. apply subscript_facts in S as [_ S]. rewrite !in_app_iff in C. destruct C as [C|[C|C]].
  - apply space_facts. auto.
  - apply S in C. tauto.
  - apply space_facts. auto.
Qed.
Lemma join_in sep c : forall ps, In c (join sep ps) -> In c sep \/ exists p, In p ps /\ In c p.
Proof.
  induction ps as [|p ps IH]; [intros []|]. destruct ps as [|q ps].
  - cbn. intros H. right. exists p. auto.
  - change (join sep (p :: q :: ps)) with (p ++ sep ++ join sep (q :: ps)). rewrite !in_app_iff. intros [H|[H|H]]; auto.
    + right. exists p. split; auto. now left.
    + destruct (IH H) as [K|(x & X & K)]; auto. right. exists x. split; auto. now right.
Qed.
Lemma ref_tokens_spec s name dims : array_ref s name dims -> ref_tokens s = name :: dims.
Proof.
  intros (N & FS & LD & w & ps & W & F2 & ->). destruct (fname_word _ N) as [N1 N2].
  assert (PF : forall p, In p ps -> forall c, In c p -> c <> "("%char /\ c <> ")"%char /\ c <> ","%char).
  { clear -FS F2. induction F2 as [|p d ps ds P F2 IH]; intros q Q; [destruct Q|]. destruct Q as [<-|Q].
    - eapply padded_facts; eauto. now apply Forall_inv in FS.
    - apply IH; auto. now apply Forall_inv_tail in FS. }
  assert (PN : ps <> []) by (intros ->; inversion F2; subst; cbn in LD; lia).
  unfold ref_tokens. cbv zeta.
  assert (ST : strip (name ++ w ++ L "(" ++ join (L ",") ps ++ L ")") = name ++ w ++ L "(" ++ join (L ",") ps ++ L ")").
  { destruct name as [|c t]; [congruence|]. cbn [app]. eapply (strip_clean _ _ ")"%char (c :: t ++ w ++ L "(" ++ join (L ",") ps)).
    - cbn [app]. rewrite <- !app_assoc. reflexivity.
    - apply word_facts. apply N2. now left.
    - reflexivity. }
  rewrite ST.
  assert (RS : rstrip_c ")" (name ++ w ++ L "(" ++ join (L ",") ps ++ L ")") = name ++ w ++ L "(" ++ join (L ",") ps).
  { replace (name ++ w ++ L "(" ++ join (L ",") ps ++ L ")") with ((name ++ w ++ L "(" ++ join (L ",") ps) ++ L ")") by (now rewrite <- !app_assoc).
    unfold rstrip_c. rewrite rev_app_distr. cbn [L list_ascii_of_string rev app]. cbn [dropwhile]. rewrite Ascii.eqb_refl.
    rewrite dropwhile_none; [apply rev_involutive|]. destruct (rev (name ++ w ++ "("%char :: join [","%char] ps)) as [|x l] eqn:R; auto.
    apply Ascii.eqb_neq. intros <-. assert (I : In ")"%char (rev (name ++ w ++ "("%char :: join [","%char] ps))) by (rewrite R; now left).
    apply in_rev in I. rewrite !in_app_iff in I. destruct I as [I|[I|[I|I]]].
    - apply N2, word_facts in I. tauto.
    - apply W, space_facts in I. tauto.
    - discriminate.
    - apply join_in in I as [I|(p & P & I)]; [destruct I as [I|[]]; discriminate|]. apply (PF p P) in I. tauto. }
  rewrite RS. change (L "(" ++ join (L ",") ps) with ("("%char :: join [","%char] ps).
  rewrite app_assoc, split_app.
  2:{ rewrite in_app_iff. intros [I|I]; [apply N2, word_facts in I|apply W, space_facts in I]; tauto. }
  rewrite split_none.
  2:{ intros I. apply join_in in I as [I|(p & P & I)]; [destruct I as [I|[]]; discriminate|]. apply (PF p P) in I. tauto. }
  cbn [nth]. rewrite split_join; auto.
  2:{ intros p P I. apply (PF p P) in I. tauto. }
  f_equal.
  - apply strip_padded; auto.
    + exists [], w. split; auto. split; auto. intros c [].
    + intros c C. now apply word_facts, N2.
  - clear -F2 FS. induction F2 as [|p d ps ds P F2 IH]; auto. cbn [map]. apply Forall_inv in FS as S. apply Forall_inv_tail in FS.
    rewrite IH by auto. f_equal. apply subscript_facts in S as [S1 S2]. apply strip_padded; auto. intros c C. apply S2. exact C.
Qed.
