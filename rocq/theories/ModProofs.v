(* ModProofs.v: what the regular expressions of the scanner recognise. *)
From Verif Require Import PyStr Base LineSpec LineModel LineProofs CheckModel CheckProofs CheckSpec CheckProps DeclModel DeclSpec DeclProofs DeclHeads DeclBody DeclProps DeclMoreProps ModModel ModSpec.
From Coq Require Import Lia Permutation.
Open Scope nat_scope.
Open Scope list_scope.

(* ---- words ---- *)
Lemma blank_nil : blank []. Proof. reflexivity. Qed.
#[local] Hint Resolve blank_nil : core.
Lemma aw_yes t w r : spells t w -> after_word w (t ++ r) = Some r.
Proof. intros H. unfold after_word. now rewrite (after_ci_spells t w r H). Qed.
Lemma aw_some w s r : after_word w s = Some r -> exists t, s = t ++ r /\ spells t w.
Proof. unfold after_word. destruct (after_ci w s) as [[t u]|] eqn:E; [|discriminate]. intros [= <-]. apply after_ci_some in E. eauto. Qed.
Lemma aw_differ w t r : differ w (lower t) = true -> after_word w (t ++ r) = None.
Proof. intros H. unfold after_word. now rewrite after_ci_differ. Qed.
Lemma spells_cons t c w : spells t (c :: w) -> exists d u, t = d :: u /\ lower_c d = c /\ spells u w.
Proof. unfold spells. destruct t as [|d u]; [discriminate|]. cbn. intros [= A B]. eauto. Qed.
Lemma spells_first t c w : spells t (c :: w) -> is_space c = false -> exists d u, t = d :: u /\ is_space d = false.
Proof. intros H N. apply spells_cons in H as (d & u & -> & <- & _). rewrite lower_space in N. eauto. Qed.
Lemma ls_word w t r c k : blank w -> spells t (c :: k) -> is_space c = false -> lstrip (w ++ t ++ r) = t ++ r.
Proof. intros B H N. destruct (spells_first _ _ _ H N) as (d & u & -> & D). rewrite lstrip_blank by auto. cbn [app]. now apply lstrip_head. Qed.
Lemma ls_split s : exists b, blank b /\ s = b ++ lstrip s.
Proof. exists (blanks s). split; [apply blanks_blank|apply split_blanks]. Qed.
Lemma id_yes n r : identifier n -> stops r -> id_at (n ++ r) = Some (n, r).
Proof.
  intros I S. destruct (ident_word _ I) as [_ W]. destruct (take_stop is_word n r W) as [E1 E2]; [destruct r; auto|].
  destruct I as (c & t & -> & A & _). cbn [app] in *. unfold id_at. rewrite A. now rewrite E1, E2.
Qed.
Lemma id_some s n r : id_at s = Some (n, r) -> s = n ++ r /\ identifier n /\ stops r.
Proof.
  unfold id_at. destruct s as [|c s]; [discriminate|]. destruct (is_alpha c) eqn:A; [|discriminate]. intros [= <- <-].
  assert (W := alpha_word c A). rewrite W. cbn [app]. split; [f_equal; symmetry; apply takewhile_dropwhile|]. split.
  - exists c, (takewhile is_word s). repeat split; auto. clear. induction s as [|d s IH]; cbn; auto. destruct (is_word d) eqn:E; cbn; auto. now rewrite E.
  - clear. induction s as [|d s IH]; cbn; auto. destruct (is_word d) eqn:E; cbn; auto.
Qed.
Lemma id_none s : id_at s = None -> match s with c :: _ => is_alpha c = false | [] => True end.
Proof. unfold id_at. destruct s as [|c s]; auto. destruct (is_alpha c); [discriminate|auto]. Qed.
Lemma ls_id w n r : blank w -> identifier n -> lstrip (w ++ n ++ r) = n ++ r.
Proof. intros B (c & t & -> & A & _). rewrite lstrip_blank by auto. cbn [app]. apply lstrip_head. now apply alpha_not_space. Qed.
Lemma blanks_ne w r : blank w -> w <> [] -> exists c u, blanks (w ++ r) = c :: u.
Proof. intros B N. destruct w as [|c w]; [easy|]. unfold blank in B. cbn in B. apply andb_true_iff in B as [B _]. unfold blanks. cbn. rewrite B. eauto. Qed.

(* ---- subroutine statements ---- *)
Lemma skip_sound s : exists p, prefix p /\ s = p ++ skip_prefix s.
Proof.
  unfold skip_prefix, prefix. destruct (after_word (L "recursive") s) as [r|] eqn:A; [apply aw_some in A as (t & -> & H); exists t; auto|].
  destruct (after_word (L "pure") s) as [r|] eqn:B; [apply aw_some in B as (t & -> & H); exists t; auto|].
  destruct (after_word (L "elemental") s) as [r|] eqn:C; [apply aw_some in C as (t & -> & H); exists t; auto|]. exists []. auto.
Qed.
Lemma skip_yes p w k r : prefix p -> blank w -> spells k (L "subroutine") ->
  lstrip (skip_prefix (lstrip (p ++ w ++ k ++ r))) = k ++ r.
Proof.
  intros P W K. assert (F : forall q, lstrip (q ++ k ++ r) = lstrip (q ++ k ++ r)) by reflexivity.
  unfold skip_prefix. destruct P as [->|[P|[P|P]]].
  - cbn [app]. rewrite (ls_word w k r _ _ W K eq_refl). rewrite !aw_differ by (rewrite K; reflexivity).
    now rewrite <- (app_nil_l (k ++ r)), (ls_word [] k r _ _ eq_refl K eq_refl).
  - rewrite <- (app_nil_l (p ++ w ++ k ++ r)), (ls_word [] p (w ++ k ++ r) _ _ eq_refl P eq_refl). rewrite (aw_yes _ _ _ P). now apply (ls_word w k r _ _ W K).
  - rewrite <- (app_nil_l (p ++ w ++ k ++ r)), (ls_word [] p (w ++ k ++ r) _ _ eq_refl P eq_refl). rewrite aw_differ by (rewrite P; reflexivity). rewrite (aw_yes _ _ _ P). now apply (ls_word w k r _ _ W K).
  - rewrite <- (app_nil_l (p ++ w ++ k ++ r)), (ls_word [] p (w ++ k ++ r) _ _ eq_refl P eq_refl). rewrite !aw_differ by (rewrite P; reflexivity). rewrite (aw_yes _ _ _ P). now apply (ls_word w k r _ _ W K).
Qed.
Lemma arg_list_stops args r : arg_list args r -> stops r.
Proof.
  intros [(_ & w & c & -> & W & C)|(w & a & z & -> & W & _)]; (destruct w as [|d w]; [|cbn; unfold blank in W; cbn in W; apply andb_true_iff in W as [W _]; destruct (is_word d) eqn:E; auto; apply word_not_space in E; congruence]).
  - destruct C as [->|(t & ->)]; reflexivity.
  - reflexivity.
Qed.
Lemma id_noparen x : identifier x -> ~ In ")"%char x /\ ~ In ","%char x.
Proof. intros I. destruct (ident_word _ I) as [_ W]. split; now apply (noin is_word). Qed.
Lemma padded_no c x t : is_space c = false -> ~ In c x -> padded x t -> ~ In c t.
Proof. intros C N (u & v & -> & U & V). rewrite !in_app_iff. intros [X|[X|X]]; auto; revert X; now apply (noin is_space). Qed.
Lemma F2_padded_no c args ts : is_space c = false -> Forall (fun x => ~ In c x) args -> Forall2 padded args ts -> forall t, In t ts -> ~ In c t.
Proof. intros C F H. revert F. induction H as [|x t args ts P H IH]; intros F y Y; [destruct Y|]. inversion_clear F. destruct Y as [<-|Y]; [now apply (padded_no c x)|auto]. Qed.
Lemma arg_names_facts args a : arg_names args a -> ~ In ")"%char a /\ dummy_names (Some a) = map lower args.
Proof.
  intros [(-> & B)|(NE & FI & ts & -> & H)].
  - split; [now apply (noin is_space)|]. unfold dummy_names. now rewrite (strip_blank a B).
  - assert (FP : Forall (fun x => ~ In ")"%char x) args) by (revert FI; apply Forall_impl; intros x I; apply (id_noparen x I)).
    assert (FC : Forall (fun x => ~ In ","%char x) args) by (revert FI; apply Forall_impl; intros x I; apply (id_noparen x I)).
    assert (NT : ts <> []) by (destruct H; easy).
    assert (IN : forall t, In t ts -> ~ In ")"%char t) by now apply (F2_padded_no ")" args).
    assert (CN : forall t, In t ts -> ~ In ","%char t) by now apply (F2_padded_no "," args).
    split.
    { clear - IN. induction ts as [|t ts IH]; [easy|]. destruct ts as [|t2 ts].
      - cbn [join]. apply IN. now left.
      - cbn [join]. rewrite !in_app_iff. intros [X|[X|X]]; [revert X; apply IN; now left|cbn in X; intuition discriminate|revert X; apply IH; intros t' I'; apply IN; now right]. }
    (* the first and the last texts, stripped, are still padded *)
    assert (SJ : exists ts', strip (join (L ",") ts) = join (L ",") ts' /\ Forall2 padded args ts' /\ ts' <> []).
    { assert (L1 : exists ts', lstrip (join (L ",") ts) = join (L ",") ts' /\ Forall2 padded args ts' /\ (exists c u, join (L ",") ts' = c :: u /\ is_space c = false)).
      { destruct H as [|x t args ts P H]; [easy|]. inversion_clear FI as [|? ? I _]. destruct P as (u & v & -> & U & V). exists ((x ++ v) :: ts).
        assert (J : forall (y : str), join (L ",") ((u ++ y) :: ts) = u ++ join (L ",") (y :: ts)) by (intros y; destruct ts; cbn [join]; now rewrite <- ?app_assoc).
        rewrite J. rewrite lstrip_blank by auto. assert (HD : exists c w, join (L ",") ((x ++ v) :: ts) = c :: w /\ is_space c = false).
        { destruct I as (c & w & -> & A & _). apply alpha_not_space in A. destruct ts; cbn [join app]; eauto. }
        destruct HD as (c & w & E & C). split; [etransitivity; [exact (f_equal lstrip E)|]; etransitivity; [now apply lstrip_head|symmetry; exact E]|]. split; [constructor; [exists [], v; split; [reflexivity|split; [reflexivity|exact V]]|exact H]|exists c, w; split; [exact E|exact C]]. }
      destruct L1 as (t1 & E1 & H1 & c & u & E2 & C). unfold strip. rewrite E1. clear E1.
      destruct (@exists_last _ t1) as (pre & z & ->). { intros ->. inversion H1. subst. easy. }
      apply Forall2_app_inv_r in H1 as (a1 & a2 & H1 & H2 & ->). inversion H2 as [|x z' ? ? P P0]; subst. inversion P0; subst. destruct P as (p & q & -> & U & V).
      exists (pre ++ [p ++ x]). assert (IX : identifier x) by (apply Forall_app in FI as [_ FI]; now inversion_clear FI).
      assert (J : forall y : str, join (L ",") (pre ++ [y]) = match pre with [] => y | _ => join (L ",") pre ++ L "," ++ y end).
      { intros y. clear. induction pre as [|k pre IH]; [reflexivity|]. destruct pre as [|k2 pre]; [reflexivity|]. cbn [app join] in *. rewrite IH. now rewrite <- !app_assoc. }
      split; [|split; [apply Forall2_app; auto; constructor; [exists p, []; rewrite app_nil_r; auto|constructor]|now destruct pre]].
      rewrite !J. destruct (ident_solid x IX) as [_ (x' & d & -> & D)].
      clear - V D. destruct pre as [|k pre].
      - replace (p ++ (x' ++ [d]) ++ q) with (((p ++ x') ++ [d]) ++ q) by now rewrite <- !app_assoc. rewrite rstrip_blank by auto. rewrite rstrip_end by auto. now rewrite <- app_assoc.
      - set (J := join (L ",") (k :: pre)). replace (J ++ L "," ++ p ++ (x' ++ [d]) ++ q) with (((J ++ L "," ++ p ++ x') ++ [d]) ++ q) by now rewrite <- !app_assoc. rewrite rstrip_blank by auto. rewrite rstrip_end by auto. now rewrite <- !app_assoc. }
    destruct SJ as (ts' & E & H' & NT'). unfold dummy_names. rewrite E.
    assert (CN' : forall t, In t ts' -> ~ In ","%char t) by now apply (F2_padded_no "," args).
    assert (NN : is_nil (join (L ",") ts') = false).
    { destruct H' as [|x t args ts' P H']; [easy|]. inversion_clear FI as [|? ? I _]. destruct P as (u & v & -> & U & V). destruct I as (c & w & -> & _). destruct ts', u; reflexivity. }
    rewrite NN. change (L ",") with [","%char]. rewrite split_join by auto. clear - H' FI.
    induction H' as [|x t args ts' P H' IH]; [reflexivity|]. inversion_clear FI as [|? ? I F]. cbn [map]. rewrite IH by auto. f_equal. f_equal. destruct P as (u & v & -> & U & V). apply strip_core; auto. now apply ident_solid.
Qed.
Lemma sub_yes n args s : routine n args s -> exists a, sub_match s = Some (n, a) /\ dummy_names a = map lower args.
Proof.
  intros (w0 & p & w1 & k & w2 & r & -> & W0 & P & W1 & K & W2 & NW & I & A). unfold sub_match.
  rewrite lstrip_blank by auto. rewrite skip_yes by auto. rewrite (aw_yes _ _ _ K). rewrite ls_id by auto. rewrite id_yes by (auto; now apply (arg_list_stops args)).
  destruct A as [(-> & w & c & -> & W & C)|(w & a & z & -> & W & N)].
  - exists None. split; [|reflexivity]. rewrite lstrip_blank by auto. destruct C as [->|(t & ->)]; reflexivity.
  - destruct (arg_names_facts args a N) as [NP D]. destruct (blank_head w (L "(" ++ a ++ L ")" ++ z) W eq_refl) as [_ ->]. cbn [L list_ascii_of_string app Ascii.eqb Bool.eqb].
    assert (NL : exists a', lstrip (a ++ ")"%char :: z) = a' ++ ")"%char :: z /\ ~ In ")"%char a' /\ exists b, a = b ++ a' /\ blank b).
    { destruct (blank_or_last a) as [B|_]; [exists []; rewrite lstrip_blank by auto; rewrite lstrip_head by reflexivity; split; auto; split; auto; exists a; now rewrite app_nil_r|].
      destruct (ls_split a) as (b & B & E). exists (lstrip a). split; [|split; [intros X; apply NP; rewrite E; apply in_app_iff; now right|eauto]].
      rewrite E at 1. rewrite <- app_assoc, lstrip_blank by auto. destruct (lstrip a) as [|c u] eqn:EL; [now apply lstrip_head|]. cbn [app]. apply lstrip_head.
      assert (X := lstrip_idem a). rewrite EL in X. unfold lstrip in X. cbn in X. destruct (is_space c) eqn:SC; auto. exfalso.
      assert (Y : length (dropwhile is_space u) <= length u) by (clear; induction u as [|y u IH]; cbn; [lia|destruct (is_space y); cbn; lia]). rewrite X in Y. cbn in Y. lia. }
    destruct NL as (a' & E & NA & b & -> & B). rewrite E. assert (H : has_c ")" (a' ++ ")"%char :: z) = true) by (apply has_c_in, in_app_iff; right; now left). rewrite H.
    rewrite (upto_at ")" a' z NA). eexists. split; [reflexivity|]. rewrite <- D. unfold dummy_names. now rewrite strip_blank_l.
Qed.
Lemma sub_no s : ~ opens_routine s -> sub_match s = None.
Proof.
  intros N. unfold sub_match. destruct (after_word (L "subroutine") (lstrip (skip_prefix (lstrip s)))) as [r|] eqn:E; [|reflexivity].
  destruct (id_at (lstrip r)) as [[n r2]|] eqn:I; [|reflexivity]. exfalso. apply N. apply id_some in I as (EI & (c & t & -> & A & _) & _).
  apply aw_some in E as (k & E & K). destruct (ls_split s) as (w0 & W0 & ES). destruct (skip_sound (lstrip s)) as (p & P & EP). destruct (ls_split (skip_prefix (lstrip s))) as (w1 & W1 & EW). destruct (ls_split r) as (w2 & W2 & ER).
  exists w0, p, w1, k, w2, c, (t ++ r2). split; [|auto 10]. rewrite ES at 1. rewrite EP at 1. rewrite EW at 1. rewrite E at 1. rewrite ER at 1. rewrite EI. now rewrite <- ?app_assoc.
Qed.

(* ---- the ends ---- *)
Lemma after_end_iff w s : after_end w s = None \/ end_of w s.
Proof.
  unfold after_end. destruct (after_word (L "end") (lstrip s)) as [r|] eqn:E; [|auto]. destruct (after_word w (lstrip r)) as [r2|] eqn:E2; [|auto]. right.
  apply aw_some in E as (e & E & HE). apply aw_some in E2 as (t & E2 & HT). destruct (ls_split s) as (w0 & W0 & ES). destruct (ls_split r) as (w1 & W1 & ER).
  exists w0, e, w1, t, r2. split; [|auto]. rewrite ES at 1. rewrite E at 1. rewrite ER at 1. rewrite E2. now rewrite <- ?app_assoc.
Qed.
Lemma after_end_yes w w0 e w1 t r : blank w0 -> spells e (L "end") -> blank w1 -> spells t w -> match w with c :: _ => is_space c = false | [] => False end -> after_end w (w0 ++ e ++ w1 ++ t ++ r) = Some r.
Proof.
  intros W0 E W1 T C. destruct w as [|c k]; [easy|]. unfold after_end. rewrite (ls_word w0 e _ _ _ W0 E eq_refl). rewrite (aw_yes _ _ _ E). rewrite (ls_word w1 t r _ _ W1 T C). now apply aw_yes.
Qed.
Lemma endsub_yes s : end_of (L "subroutine") s -> endsub_match s = true.
Proof. intros (w0 & e & w1 & t & r & -> & W0 & E & W1 & T). unfold endsub_match. now rewrite (after_end_yes (L "subroutine") w0 e w1 t r W0 E W1 T eq_refl). Qed.
Lemma endsub_no s : ~ end_of (L "subroutine") s -> endsub_match s = false.
Proof. intros N. unfold endsub_match. destruct (after_end_iff (L "subroutine") s) as [->|]; tauto. Qed.
Lemma endtype_yes s : end_of (L "type") s -> endtype_match s = true.
Proof. intros (w0 & e & w1 & t & r & -> & W0 & E & W1 & T). unfold endtype_match. now rewrite (after_end_yes (L "type") w0 e w1 t r W0 E W1 T eq_refl). Qed.
Lemma endtype_no s : ~ end_of (L "type") s -> endtype_match s = false.
Proof. intros N. unfold endtype_match. destruct (after_end_iff (L "type") s) as [->|]; tauto. Qed.
Lemma endmod_yes n s : end_module n s -> endmod_match s = Some (Some n).
Proof.
  intros (w0 & e & w1 & t & w2 & r & -> & W0 & E & W1 & T & W2 & NW & I & S). unfold endmod_match.
  rewrite (after_end_yes (L "module") w0 e w1 t (w2 ++ n ++ r) W0 E W1 T eq_refl).
  destruct (blanks_ne w2 (n ++ r) W2 NW) as (c & u & ->). rewrite ls_id by auto. now rewrite id_yes.
Qed.
Lemma endmod_no s : ~ end_of (L "module") s -> endmod_match s = None.
Proof. intros N. unfold endmod_match. destruct (after_end_iff (L "module") s) as [->|]; tauto. Qed.
Lemma after_end_other w0 t r x w : blank w0 -> spells t (x :: w) -> is_space x = false -> differ (L "end") (x :: w) = true -> forall y, after_end y (w0 ++ t ++ r) = None.
Proof. intros W H X D y. unfold after_end. rewrite (ls_word w0 t r _ _ W H X). rewrite aw_differ; [reflexivity|]. unfold spells in H. now rewrite H. Qed.

(* ---- module statements ---- *)
Lemma module_yes n s : module_stmt n s -> module_match s = Some n.
Proof.
  intros (w0 & t & w1 & r & -> & W0 & T & W1 & NW & I & S). unfold module_match. rewrite (ls_word w0 t _ _ _ W0 T eq_refl). rewrite (aw_yes _ _ _ T).
  destruct (blanks_ne w1 (n ++ r) W1 NW) as (c & u & ->). rewrite ls_id by auto. now rewrite id_yes.
Qed.
Lemma module_no s : (forall n, ~ module_stmt n s) -> module_match s = None.
Proof.
  intros N. unfold module_match. destruct (after_word (L "module") (lstrip s)) as [r|] eqn:E; [|reflexivity]. destruct (blanks r) as [|b0 b1] eqn:B; [reflexivity|].
  destruct (id_at (lstrip r)) as [[n r2]|] eqn:I; [|reflexivity]. exfalso. apply (N n). apply aw_some in E as (t & E & T). apply id_some in I as (EI & I & S).
  destruct (ls_split s) as (w0 & W0 & ES). exists w0, t, (blanks r), r2. split; [|split; auto; split; auto; split; [apply blanks_blank|split; [rewrite B; easy|auto]]].
  rewrite ES at 1. rewrite E. rewrite (split_blanks r) at 1. rewrite EI. now rewrite <- ?app_assoc.
Qed.

(* ---- announcements ---- *)
Lemma table_yes n s : documents n s -> table_match s = Some n.
Proof.
  intros (w0 & m & w1 & sec & w2 & a & r & -> & W0 & M & W1 & SE & W2 & A & I & S). unfold table_match.
  destruct (blank_head w0 (L "!" ++ m ++ w1 ++ sec ++ w2 ++ a ++ n ++ r) W0 eq_refl) as [_ ->]. cbn [L list_ascii_of_string app Ascii.eqb Bool.eqb].
  assert (X : forall d, (d = "!"%char \/ d = ">"%char) -> (Ascii.eqb d "!" || Ascii.eqb d ">")%bool = true) by (intros d [->| ->]; reflexivity).
  assert (MM : exists d, m = [d] /\ (d = "!"%char \/ d = ">"%char)) by (destruct M as [->| ->]; eexists; (split; [reflexivity|auto])). destruct MM as (d & -> & D). cbn [app andb]. rewrite (X d D).
  assert (E : lstrip match after_word (L "\section") (lstrip (w1 ++ sec ++ w2 ++ a ++ n ++ r)) with Some x => x | None => lstrip (w1 ++ sec ++ w2 ++ a ++ n ++ r) end = a ++ n ++ r).
  { destruct SE as [->|SE].
    - cbn [app]. rewrite lstrip_blank by auto. rewrite (ls_word w2 a _ _ _ W2 A eq_refl). rewrite aw_differ by (rewrite A; reflexivity). now apply (ls_word [] a (n ++ r) _ _ eq_refl A).
    - rewrite (ls_word w1 sec _ _ _ W1 SE eq_refl). rewrite (aw_yes _ _ _ SE). now apply (ls_word w2 a _ _ _ W2 A). }
  cbn [L list_ascii_of_string] in E |- *. rewrite E. pose proof (aw_yes a (L "arg_table_") (n ++ r) A) as AW. cbn [L list_ascii_of_string] in AW. rewrite AW. now rewrite id_yes.
Qed.
Lemma table_no s : (forall n, ~ documents n s) -> table_match s = None.
Proof.
  intros N. unfold table_match. destruct (ls_split s) as (w0 & W0 & ES). destruct (lstrip s) as [|c [|d r]]; auto. destruct (Ascii.eqb_spec c "!") as [->|]; [|reflexivity]. cbn [andb].
  destruct ((Ascii.eqb d "!" || Ascii.eqb d ">")%bool) eqn:D; [|reflexivity]. set (r1 := lstrip r).
  destruct (after_word (L "arg_table_") (lstrip match after_word (L "\section") r1 with Some x => x | None => r1 end)) as [r3|] eqn:E; [|reflexivity]. destruct (id_at r3) as [[n r4]|] eqn:I; [|reflexivity].
  exfalso. apply (N n). apply id_some in I as (-> & I & S). apply aw_some in E as (a & E & A). destruct (ls_split r) as (w1 & W1 & ER). fold r1 in ER.
  assert (X : exists sec w2, r1 = sec ++ w2 ++ a ++ n ++ r4 /\ (sec = [] \/ spells sec (L "\section")) /\ blank w2).
  { destruct (after_word (L "\section") r1) as [x|] eqn:F.
    - apply aw_some in F as (sec & -> & F). destruct (ls_split x) as (w2 & W2 & EX). exists sec, w2. split; auto. rewrite EX at 1. now rewrite E.
    - destruct (ls_split r1) as (w2 & W2 & EX). exists [], w2. split; auto. rewrite EX at 1. now rewrite E. }
  destruct X as (sec & w2 & EX & SE & W2). exists w0, [d], w1, sec, w2, a, r4. split; [rewrite ES, ER, EX; reflexivity|]. split; auto. split; [|auto 10].
  apply orb_true_iff in D as [D|D]; apply Ascii.eqb_eq in D as ->; auto.
Qed.
Lemma no_bang s : match lstrip s with c :: _ => c <> "!"%char | [] => True end -> table_match s = None.
Proof. unfold table_match. intros H. destruct (lstrip s) as [|c [|d r]]; auto. destruct (Ascii.eqb_spec c "!"); [easy|reflexivity]. Qed.

(* ---- contains ---- *)
Lemma contains_yes s : begins (L "contains") s -> contains_match s = true.
Proof.
  intros (w & t & r & -> & W & T). unfold contains_match. rewrite strip_blank_l by auto. destruct (strip_word t r (spells_solid t _ T ltac:(easy) eq_refl)) as (r' & -> & _). now rewrite (aw_yes _ _ _ T).
Qed.
Lemma contains_no s : ~ begins (L "contains") s -> contains_match s = false.
Proof.
  intros N. unfold contains_match. destruct (after_word (L "contains") (strip s)) as [r|] eqn:E; [|reflexivity]. exfalso. apply N. apply aw_some in E as (t & E & T).
  destruct (strip_split s) as (a & b & A & B & S). exists a, t, (r ++ b). rewrite S at 1. rewrite E. rewrite <- app_assoc. auto.
Qed.
(* ---- arguments with an intent ---- *)
Lemma dummy_yes s : mentions_intent s -> dummy_match s = true.
Proof.
  intros (a & w & i & v & r & -> & W & I & V). induction a as [|c a IH]; cbn [app dummy_match].
  - cbn [L list_ascii_of_string app dummy_match Ascii.eqb Bool.eqb andb]. pose proof (ls_word w i (v ++ "("%char :: r) _ _ W I eq_refl) as X. rewrite X. pose proof (aw_yes i (L "intent") (v ++ "("%char :: r) I) as Y. cbn [L list_ascii_of_string] in Y. rewrite Y.
    destruct (blank_head v ("("%char :: r) V eq_refl) as [_ ->]. reflexivity.
  - rewrite IH. apply orb_true_r.
Qed.
Lemma dummy_no s : ~ mentions_intent s -> dummy_match s = false.
Proof.
  intros N. destruct (dummy_match s) eqn:E; auto. exfalso. apply N. clear N. induction s as [|c s IH]; [discriminate|]. cbn [dummy_match] in E. apply orb_true_iff in E as [E|E].
  - apply andb_true_iff in E as [C E]. apply Ascii.eqb_eq in C as ->. destruct (after_word (L "intent") (lstrip s)) as [r|] eqn:A; [|discriminate]. apply aw_some in A as (i & A & I).
    apply starts_lstrip in E as (v & q & -> & V). destruct (ls_split s) as (w & W & ES). exists [], w, i, v, q. split; auto. cbn. f_equal. rewrite ES at 1. now rewrite A.
  - destruct (IH E) as (a & w & i & v & r & -> & H). exists (c :: a), w, i, v, r. split; auto.
Qed.
(* ---- comments ---- *)
Lemma comment_yes s : comment_line s -> comment_stmt s = Ok true.
Proof. intros (w & r & -> & W). unfold comment_stmt. destruct (blank_head w (L "!" ++ r) W eq_refl) as [_ ->]. reflexivity. Qed.
Lemma comment_cases s : ~ blank s -> exists b, comment_stmt s = Ok b /\ (b = true -> comment_line s).
Proof.
  intros N. unfold comment_stmt. destruct (ls_split s) as (w & W & E). destruct (lstrip s) as [|c r]; [exfalso; apply N; rewrite E, app_nil_r; exact W|]. exists (Ascii.eqb c "!"). split; auto. intros H. apply Ascii.eqb_eq in H as ->. exists w, r. auto.
Qed.

(* ---- lines that start with a certain word ---- *)
Lemma word_line w0 t r x w : blank w0 -> spells t (x :: w) -> is_alpha x = true ->
  table_match (w0 ++ t ++ r) = None /\ comment_stmt (w0 ++ t ++ r) = Ok false.
Proof.
  intros W H A. apply spells_cons in H as (d & u & -> & <- & _). rewrite lower_alpha in A. assert (SP := alpha_not_space d A). assert (NB : d <> "!"%char) by (intros ->; discriminate).
  assert (E : lstrip (w0 ++ (d :: u) ++ r) = d :: u ++ r) by (rewrite lstrip_blank by auto; now apply lstrip_head). split.
  - apply no_bang. now rewrite E.
  - unfold comment_stmt. rewrite E. destruct (Ascii.eqb_spec d "!"); [easy|reflexivity].
Qed.
Lemma word_endmod w0 t r x w : blank w0 -> spells t (x :: w) -> is_space x = false -> differ (L "end") (x :: w) = true ->
  endmod_match (w0 ++ t ++ r) = None /\ endsub_match (w0 ++ t ++ r) = false /\ endtype_match (w0 ++ t ++ r) = false.
Proof. intros W H X D. assert (E := after_end_other w0 t r x w W H X D). unfold endmod_match, endsub_match, endtype_match. now rewrite !E. Qed.
Lemma word_sub w0 t r x w : blank w0 -> spells t (x :: w) -> is_space x = false ->
  differ (L "recursive") (x :: w) = true -> differ (L "pure") (x :: w) = true -> differ (L "elemental") (x :: w) = true -> differ (L "subroutine") (x :: w) = true -> sub_match (w0 ++ t ++ r) = None.
Proof.
  intros W H X D1 D2 D3 D4. unfold sub_match, skip_prefix. rewrite (ls_word w0 t r _ _ W H X). rewrite !aw_differ by (unfold spells in H; now rewrite H).
  change (t ++ r) with ([] ++ t ++ r). rewrite (ls_word [] t r _ _ eq_refl H X). now rewrite aw_differ by (unfold spells in H; now rewrite H).
Qed.
Lemma word_contains w0 t r x w : blank w0 -> spells t (x :: w) -> is_space x = false -> differ (L "contains") (x :: w) = true -> contains_match (w0 ++ t ++ r) = false.
Proof.
  intros W H X D. apply contains_no. intros (a & k & q & E & A & K). assert (E2 : lstrip (w0 ++ t ++ r) = lstrip (a ++ k ++ q)) by now rewrite E.
  rewrite (ls_word w0 t r _ _ W H X), (ls_word a k q _ _ A K eq_refl) in E2. assert (Y := aw_yes k (L "contains") q K). rewrite <- E2 in Y. rewrite aw_differ in Y; [discriminate|]. unfold spells in H. now rewrite H.
Qed.
