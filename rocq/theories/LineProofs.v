From Verif Require Import PyStr LineModel LineSpec CheckProofs.
Open Scope nat_scope.
Open Scope list_scope.

(* ---- joins ---- *)
Lemma join_one sep x : join sep [x] = x. Proof. reflexivity. Qed.
Lemma join_app sep l1 l2 : l1 <> [] -> l2 <> [] -> join sep (l1 ++ l2) = join sep l1 ++ sep ++ join sep l2.
Proof.
  induction l1 as [|x l1 IH]; intros N1 N2; [congruence|]. destruct l1 as [|y l1].
  - destruct l2 as [|z l2]; [congruence|]. reflexivity.
  - cbn [app]. change (join sep (x :: y :: l1 ++ l2)) with (x ++ sep ++ join sep ((y :: l1) ++ l2)). rewrite IH by (auto; discriminate).
    change (join sep (x :: y :: l1)) with (x ++ sep ++ join sep (y :: l1)). now rewrite <- !app_assoc.
Qed.
Lemma split_cat sep a b : split_on sep (a ++ sep :: b) = split_on sep a ++ split_on sep b.
Proof.
  induction a as [|c a IH]; cbn [app split_on]; [now rewrite Ascii.eqb_refl|]. destruct (Ascii.eqb c sep); [now rewrite IH|].
  rewrite IH. destruct (split_on sep a) as [|h r] eqn:Q; [now apply split_on_nonempty in Q|]. reflexivity.
Qed.
Lemma split_ne sep s : split_on sep s <> []. Proof. intros H. now apply split_on_nonempty in H. Qed.

(* ---- statements ---- *)
Definition ctx_mode (m : option ascii) : ctx := match m with None => Code | Some q => Quote q end.
Fixpoint pieces (mode : option ascii) (cur : str) (s : str) : list str :=
  match s with
  | [] => [cur]
  | c :: t =>
      match mode with
      | Some q => pieces (if Ascii.eqb c q then None else Some q) (cur ++ [c]) t
      | None =>
          if Ascii.eqb c "'" then pieces (Some "'"%char) (cur ++ [c]) t
          else if Ascii.eqb c """" then pieces (Some """"%char) (cur ++ [c]) t
          else if Ascii.eqb c "!" then [cur ++ s]
          else if Ascii.eqb c ";" then cur :: pieces None [] t
          else pieces None (cur ++ [c]) t
      end
  end.
Definition ne (s : str) : bool := match s with [] => false | _ => true end.
Lemma flush_filter s : flush s = List.filter ne [s]. Proof. destruct s; reflexivity. Qed.
Lemma ls_pieces s : forall mode cur, ls_loop mode cur s = List.filter ne (pieces mode cur s).
Proof.
  induction s as [|c t IH]; intros mode cur; cbn [ls_loop pieces]; [apply flush_filter|].
  destruct mode as [q|]; [apply IH|]. destruct (Ascii.eqb c "'"); [apply IH|]. destruct (Ascii.eqb c """"); [apply IH|].
  destruct (Ascii.eqb c "!"); [apply flush_filter|]. destruct (Ascii.eqb c ";"); [|apply IH].
  rewrite IH. cbn [List.filter]. destruct cur; reflexivity.
Qed.
Lemma pieces_ne s : forall mode cur, pieces mode cur s <> [].
Proof.
  induction s as [|c t IH]; intros mode cur; cbn [pieces]; [discriminate|]. destruct mode; [apply IH|].
  destruct (Ascii.eqb c "'"); [apply IH|]. destruct (Ascii.eqb c """"); [apply IH|]. destruct (Ascii.eqb c "!"); [discriminate|]. destruct (Ascii.eqb c ";"); [discriminate|apply IH].
Qed.
Lemma pieces_join s : forall mode cur, join (L ";") (pieces mode cur s) = cur ++ s.
Proof.
  induction s as [|c t IH]; intros mode cur; cbn [pieces]; [cbn; now rewrite app_nil_r|].
  assert (X : forall m, join (L ";") (pieces m (cur ++ [c]) t) = cur ++ c :: t) by (intros m; rewrite IH, <- app_assoc; reflexivity).
  destruct mode; [apply X|]. destruct (Ascii.eqb c "'"); [apply X|]. destruct (Ascii.eqb c """"); [apply X|]. destruct (Ascii.eqb c "!"); [reflexivity|].
  destruct (Ascii.eqb c ";") eqn:E; [|apply X]. apply Ascii.eqb_eq in E. subst c.
  change (cur :: pieces None [] t) with ([cur] ++ pieces None [] t). rewrite join_app by (try discriminate; apply pieces_ne). rewrite IH. reflexivity.
Qed.
Definition splits (l : list str) (sep : ascii) (pre post : str) : Prop :=
  exists l1 l2, l = l1 ++ l2 /\ l1 <> [] /\ l2 <> [] /\ pre = join [sep] l1 /\ post = join [sep] l2.
Lemma no_splits x sep pre post : ~ splits [x] sep pre post.
Proof. intros (l1 & l2 & E & N1 & N2 & _). destruct l1 as [|a [|]]; [congruence| |destruct l2; discriminate]. cbn in E. injection E as _ <-. congruence. Qed.
Lemma splits_cons x l sep pre post : l <> [] ->
  splits (x :: l) sep pre post <-> (pre = x /\ post = join [sep] l) \/ exists pre', splits l sep pre' post /\ pre = x ++ sep :: pre'.
Proof.
  intros NL. split.
  - intros (l1 & l2 & E & N1 & N2 & -> & ->). destruct l1 as [|a l1]; [congruence|]. cbn in E. injection E as <- ->. destruct l1 as [|b l1].
    + left. auto.
    + right. exists (join [sep] (b :: l1)). split; [|reflexivity]. exists (b :: l1), l2. split; auto. split; [discriminate|auto].
  - intros [[-> ->]|(pre' & (l1 & l2 & -> & N1 & N2 & -> & ->) & ->)].
    + exists [x], l. split; auto. split; [discriminate|auto].
    + exists (x :: l1), l2. split; auto. split; [discriminate|]. split; auto. split; auto. destruct l1; [congruence|reflexivity].
Qed.
Lemma comment_stays p : fold_left ctx_step p Comment = Comment.
Proof. induction p; cbn; auto. Qed.
Lemma pieces_splits s : forall mode cur pre post,
  splits (pieces mode cur s) ";" pre post <-> exists p, pre = cur ++ p /\ s = p ++ ";"%char :: post /\ fold_left ctx_step p (ctx_mode mode) = Code.
Proof.
  induction s as [|c t IH]; intros mode cur pre post; cbn [pieces].
  - split; [intros H; now apply no_splits in H|]. intros (p & _ & E & _). destruct p; discriminate.
  - assert (X : forall m, ctx_step (ctx_mode mode) c = ctx_mode m -> (Ascii.eqb c ";" = false \/ mode <> None) ->
      splits (pieces m (cur ++ [c]) t) ";" pre post <-> exists p, pre = cur ++ p /\ c :: t = p ++ ";"%char :: post /\ fold_left ctx_step p (ctx_mode mode) = Code).
    { intros m M NS. rewrite IH. split.
      - intros (p & -> & -> & F). exists (c :: p). rewrite <- app_assoc. cbn. rewrite M. auto.
      - intros (p & -> & E & F). destruct p as [|d p]; cbn in *.
        + injection E as -> <-. rewrite Ascii.eqb_refl in NS. destruct NS as [NS|NS]; [discriminate|]. destruct mode; [discriminate|congruence].
        + injection E as <- ->. rewrite M in F. exists p. rewrite <- app_assoc. auto. }
    destruct mode as [q|].
    + apply X; [|right; discriminate]. cbn. destruct (Ascii.eqb c q); reflexivity.
    + cbn in X. destruct (Ascii.eqb c "'") eqn:E1; [apply Ascii.eqb_eq in E1; subst c; apply X; [reflexivity|left; reflexivity]|].
      destruct (Ascii.eqb c """") eqn:E2; [apply Ascii.eqb_eq in E2; subst c; apply X; [reflexivity|left; reflexivity]|].
      destruct (Ascii.eqb c "!") eqn:E3; [apply Ascii.eqb_eq in E3; subst c|].
      * split; [intros H; now apply no_splits in H|]. intros (p & -> & E & F). destruct p as [|d p]; [discriminate|]. cbn in E. injection E as <- _. cbn in F. rewrite comment_stays in F. discriminate.
      * destruct (Ascii.eqb c ";") eqn:E4; [apply Ascii.eqb_eq in E4; subst c|apply X; [reflexivity|auto]].
        rewrite splits_cons by apply pieces_ne. rewrite pieces_join. cbn [app]. split.
        -- intros [[-> ->]|(pre' & H & ->)]; [exists []; rewrite app_nil_r; auto|]. apply IH in H as (p & -> & -> & F). exists (";"%char :: p). auto.
        -- intros (p & -> & E & F). destruct p as [|d p]; cbn in E.
           ++ injection E as <-. left. now rewrite app_nil_r.
           ++ injection E as <- ->. right. exists p. split; auto. apply IH. exists p. auto.
Qed.

(* ---- parentheses ---- *)
Lemma sum_app a b : paren_sum (a ++ b) = (paren_sum a + paren_sum b)%Z.
Proof. induction a; cbn [paren_sum app]; lia. Qed.
Lemma sum_counts s : paren_sum s = (Z.of_nat (count_c "(" s) - Z.of_nat (count_c ")" s))%Z.
Proof.
  unfold count_c. induction s as [|c t IH]; cbn [paren_sum List.filter]; [reflexivity|].
  rewrite (Ascii.eqb_sym "("), (Ascii.eqb_sym ")"). destruct (Ascii.eqb c "(") eqn:A, (Ascii.eqb c ")") eqn:B; cbn [length]; try lia.
  apply Ascii.eqb_eq in A. apply Ascii.eqb_eq in B. subst. discriminate.
Qed.
Lemma same_sum s : same_count s = true <-> paren_sum s = 0%Z.
Proof. unfold same_count. rewrite Nat.eqb_eq, sum_counts. lia. Qed.
Lemma same_sum_f s : same_count s = false <-> paren_sum s <> 0%Z.
Proof. rewrite <- same_sum. destruct (same_count s); split; congruence. Qed.
Lemma join_snoc_sum p r : paren_sum (join (L ",") (p :: r)) = (paren_sum p + paren_sum (List.concat r))%Z.
Proof.
  revert p. induction r as [|q r IH]; intros p; [cbn; lia|].
  change (join (L ",") (p :: q :: r)) with (p ++ L "," ++ join (L ",") (q :: r)). rewrite !sum_app, IH. cbn [List.concat]. rewrite sum_app. cbn. lia.
Qed.
Lemma glue_raises rest : forall var, (exists x, glue var rest = Raise x) <-> paren_sum (join (L ",") (var :: rest)) <> 0%Z.
Proof.
  induction rest as [|p r IH]; intros var; cbn [glue].
  - destruct (same_count var) eqn:E.
    + apply same_sum in E. cbn. split; [intros (x & X); discriminate|lia].
    + apply same_sum_f in E. split; eauto.
  - change (join (L ",") (var :: p :: r)) with (var ++ L "," ++ join (L ",") (p :: r)). destruct (same_count var) eqn:E.
    + apply same_sum in E. rewrite !sum_app, E. change (paren_sum (L ",")) with 0%Z. specialize (IH p).
      replace (0 + (0 + paren_sum (join (L ",") (p :: r))))%Z with (paren_sum (join (L ",") (p :: r))) by lia. rewrite <- IH.
      destruct (glue p r); cbn [bind]; split; intros (x & X); try discriminate; eauto.
    + rewrite IH. destruct r as [|q r]; [reflexivity|].
      change (join (L ",") ((var ++ L "," ++ p) :: q :: r)) with ((var ++ L "," ++ p) ++ L "," ++ join (L ",") (q :: r)).
      change (join (L ",") (p :: q :: r)) with (p ++ L "," ++ join (L ",") (q :: r)). now rewrite <- !app_assoc.
Qed.
Lemma join_cons2 sep a b l : join sep (a :: b :: l) = a ++ sep ++ join sep (b :: l). Proof. reflexivity. Qed.
Lemma glue_spec rest : forall var l, glue var rest = Ok l ->
  l <> [] /\ join (L ",") l = join (L ",") (var :: rest) /\ (forall x, In x l -> paren_sum x = 0%Z) /\
  forall pre post, splits l "," pre post <-> exists r1 r2, rest = r1 ++ r2 /\ r2 <> [] /\ pre = join (L ",") (var :: r1) /\ post = join (L ",") r2 /\ paren_sum pre = 0%Z.
Proof.
  induction rest as [|p r IH]; intros var l G; cbn [glue] in G.
  - destruct (same_count var) eqn:E; [|discriminate]. injection G as <-. apply same_sum in E. split; [discriminate|]. split; auto. split; [intros x [<-|[]]; auto|].
    intros pre post. split; [intros H; now apply no_splits in H|]. intros (r1 & r2 & E2 & N & _). symmetry in E2. apply app_eq_nil in E2 as [_ ->]. congruence.
  - destruct (same_count var) eqn:E.
    + apply same_sum in E. apply bind_ok in G as (l' & G & H). injection H as <-. destruct (IH _ _ G) as (N & J & B & S). split; [discriminate|].
      split; [destruct l' as [|x l']; [congruence|]; rewrite !join_cons2, J; reflexivity|]. split; [intros x [<-|X]; auto|].
      intros pre post. rewrite splits_cons by auto. change [","%char] with (L ","). rewrite J. split.
      * intros [[-> ->]|(pre' & H & ->)]; [exists [], (p :: r); repeat split; auto; discriminate|].
        apply S in H as (r1 & r2 & -> & N2 & -> & -> & Z). exists (p :: r1), r2. split; auto. split; auto. split; [reflexivity|]. split; auto.
        rewrite sum_app. cbn [paren_sum]. rewrite Z, E. reflexivity.
      * intros (r1 & r2 & E2 & N2 & -> & -> & Z). destruct r1 as [|q r1].
        -- left. cbn in E2. subst r2. auto.
        -- right. cbn in E2. injection E2 as <- ->. exists (join (L ",") (p :: r1)). split; [|reflexivity]. apply S. exists r1, r2. split; auto. split; auto. split; auto. split; auto.
           rewrite join_cons2, !sum_app in Z. change (paren_sum (L ",")) with 0%Z in Z. lia.
    + apply same_sum_f in E. destruct (IH _ _ G) as (N & J & B & S). 
      assert (JJ : forall q, join (L ",") ((var ++ L "," ++ p) :: q) = join (L ",") (var :: p :: q)).
      { intros [|x q]; [reflexivity|]. rewrite !join_cons2. now rewrite <- !app_assoc. }
      split; auto. split; [rewrite J; apply JJ|]. split; auto. intros pre post. rewrite S. split.
      * intros (r1 & r2 & -> & N2 & -> & -> & Z). exists (p :: r1), r2. rewrite JJ in *. auto.
      * intros (r1 & r2 & E2 & N2 & -> & -> & Z). destruct r1 as [|q r1]; [exfalso; apply E; exact Z|]. cbn in E2. injection E2 as <- ->. exists r1, r2. rewrite JJ. auto.
Qed.

(* ---- logical lines ---- *)
Lemma ends_bs_spec l : ends_bs (rstrip l) = true <-> continued l.
Proof.
  unfold ends_bs, continued. destruct (rev (rstrip l)) as [|c r] eqn:E.
  - split; [discriminate|]. intros (t & H). rewrite H, rev_app_distr in E. discriminate.
  - rewrite Ascii.eqb_eq. split.
    + intros ->. exists (rev r). rewrite <- (rev_involutive (rstrip l)), E. reflexivity.
    + intros (t & H). rewrite H, rev_app_distr in E. cbn in E. congruence.
Qed.
Fixpoint groups (lines : list str) : list (list str) :=
  match lines with
  | [] => []
  | l :: t => if ends_bs (rstrip l) then match groups t with [] => [[l]] | g :: gs => (l :: g) :: gs end else [l] :: groups t
  end.
Lemma groups_nil lines : groups lines = [] -> lines = [].
Proof. destruct lines as [|l t]; auto. cbn. destruct (ends_bs (rstrip l)); [destruct (groups t); discriminate|discriminate]. Qed.
Lemma groups_ok lines : grouped lines (groups lines).
Proof.
  induction lines as [|l t [IH1 IH2]]; [split; auto; intros [|i] g H; discriminate|]. cbn [groups]. destruct (ends_bs (rstrip l)) eqn:E.
  - apply ends_bs_spec in E. destruct (groups t) as [|g gs] eqn:G.
    + apply groups_nil in G. subst t. split; auto. intros [|i] g H; cbn in H; [|destruct i; discriminate]. injection H as <-. exists [], l. split; auto. split; [intros x []|auto].
    + split; [cbn in *; now rewrite IH1|]. intros [|i] h H; cbn in H.
      * injection H as <-. destruct (IH2 0 g eq_refl) as (b & x & -> & B & C). exists (l :: b), x. split; auto. split; [intros y [<-|Y]; auto|]. auto.
      * exact (IH2 (S i) h H).
  - split; [cbn; now rewrite IH1|]. intros [|i] h H; cbn in H.
    + injection H as <-. exists [], l. split; auto. split; [intros x []|]. intros C. apply ends_bs_spec in C. congruence.
    + destruct (IH2 i h H) as (b & x & -> & B & C). exists b, x. split; auto. split; auto. intros K. cbn. f_equal. auto.
Qed.
Lemma read_groups fuel : forall pre rest next, length rest < fuel ->
  read_from fuel (pre ++ rest) (length pre) next =
  match groups rest with [] => (None, next) | g :: _ => (Some (group_text g), length pre + length g) end.
Proof.
  induction fuel as [|fuel IH]; intros pre rest next F; [lia|]. cbn [read_from]. rewrite nth_error_app2, Nat.sub_diag by lia.
  destruct rest as [|l t]; cbn [nth_error groups]; auto. cbn in F. assert (P : piece l = if ends_bs (rstrip l) then removelast (rstrip l) else rstrip l) by reflexivity.
  destruct (ends_bs (rstrip l)) eqn:E.
  - specialize (IH (pre ++ [l]) t (S (length pre)) ltac:(lia)). rewrite <- app_assoc in IH. cbn [app] in IH. rewrite app_length in IH. cbn [length] in IH.
    replace (length pre + 1) with (S (length pre)) in IH by lia. rewrite IH. destruct (groups t) as [|g gs].
    + unfold group_text. cbn [map List.concat length]. rewrite P, app_nil_r. f_equal. lia.
    + unfold group_text. cbn [map List.concat length]. rewrite P. f_equal. lia.
  - unfold group_text. cbn [map List.concat length]. rewrite P, app_nil_r. f_equal. lia.
Qed.
Lemma group_len gs i g lines : grouped lines gs -> nth_error gs i = Some g -> g <> [].
Proof. intros [_ H] N. destruct (H i g N) as (b & l & -> & _). destruct b; discriminate. Qed.
Lemma firstn_snoc {A} (l : list A) k x : nth_error l k = Some x -> firstn (S k) l = firstn k l ++ [x].
Proof. revert k. induction l as [|y l IH]; intros [|k] N; cbn in *; try discriminate; [now injection N as ->|]. now rewrite (IH _ N). Qed.
(* [grouped] determines the groups *)
Lemma grouped_unique gs : forall lines, grouped lines gs -> gs = groups lines.
Proof.
  induction gs as [|g gs IH]; intros lines [C H]; [cbn in C; now subst|]. cbn in C.
  destruct (H 0 g eq_refl) as (b & l & -> & B & CL). cbn in CL.
  assert (T : grouped (List.concat gs) gs). { split; auto. intros i h N. destruct (H (S i) h N) as (b' & l' & E & B' & C'). exists b', l'. split; auto. split; auto. intros K. specialize (C' K). cbn in C'. lia. }
  specialize (IH _ T). subst lines. rewrite <- app_assoc. cbn [app].
  assert (L1 : groups (l :: List.concat gs) = [l] :: gs).
  { cbn [groups]. destruct (ends_bs (rstrip l)) eqn:E.
    - apply ends_bs_spec in E. specialize (CL E). assert (gs = []) by (destruct gs; [auto|cbn in CL; lia]). subst gs. reflexivity.
    - now rewrite <- IH. }
  clear -B L1. induction b as [|x b IHb]; [symmetry; exact L1|]. cbn [groups app].
  assert (E : ends_bs (rstrip x) = true) by (apply ends_bs_spec, B; now left). rewrite E. rewrite <- IHb by (intros y Y; apply B; now right). reflexivity.
Qed.
