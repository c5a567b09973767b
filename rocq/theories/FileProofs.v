From Verif Require Import PyStr FileModel FileSpec.
Open Scope nat_scope.
Open Scope list_scope.

(* ---- paths ---- *)
Lemma path_eqb_eq a b : path_eqb a b = true <-> a = b.
Proof.
  revert b; induction a as [|x a IH]; intros [|y b]; cbn [path_eqb]; split; intros H; try reflexivity; try discriminate.
  - apply andb_true_iff in H as [H1 H2]. apply str_eqb_eq in H1. apply IH in H2. now subst.
  - injection H as -> ->. rewrite str_eqb_refl. now apply IH.
Qed.
Lemma path_eqb_refl a : path_eqb a a = true. Proof. now apply path_eqb_eq. Qed.
Lemma put_same t p c : put_file t p c p = c.
Proof. unfold put_file. now rewrite path_eqb_refl. Qed.
Lemma put_other t p c q : p <> q -> put_file t p c q = t q.
Proof.
  intros H. unfold put_file. destruct (path_eqb p q) eqn:E; [|reflexivity].
  apply path_eqb_eq in E. contradiction.
Qed.

Lemma existsb_str x l : existsb (str_eqb x) l = true <-> In x l.
Proof.
  rewrite existsb_exists. split.
  - intros (y & H1 & H2). apply str_eqb_eq in H2. now subst.
  - intros H. exists x. split; auto. apply str_eqb_refl.
Qed.
Lemma existsb_str_false x l : existsb (str_eqb x) l = false <-> ~ In x l.
Proof.
  rewrite <- existsb_str. destruct (existsb (str_eqb x) l); split; intros; congruence || auto.
Qed.

Lemma dup_basename_spec walk : forall seen,
  dup_basename seen walk = false <-> NoDup (map basename walk) /\ (forall p, In p walk -> ~ In (basename p) seen).
Proof.
  induction walk as [|p r IH]; intros seen; cbn [dup_basename map].
  - split; [intros _; split; [constructor|intros p []]|reflexivity].
  - rewrite orb_false_iff, existsb_str_false, IH. split.
    + intros (A & B & C). split.
      * constructor; auto. intros K. apply in_map_iff in K as (q & E & Hq). apply (C q Hq). left. congruence.
      * intros q [<-|Hq]; auto. intros K. apply (C q Hq). now right.
    + intros (A & B). inversion A as [|? ? N1 N2]; subst. split; [apply B; now left|]. split; auto.
      intros q Hq [E|K]; [|apply (B q); [now right|exact K]].
      apply N1. rewrite E. now apply in_map.
Qed.

(* the loop, without restriction on the order *)
Lemma move_all_spec ow hd : forall walk s,
  NoDup walk -> (forall p, In p walk -> hd p = true) -> (forall p, In p walk -> src s p <> None) ->
  exists s', move_all ow hd s walk = Ok s' /\ src_present s' = src_present s /\
    (forall p, In p walk -> src s' p = None) /\ (forall p, ~ In p walk -> src s' p = src s p) /\
    (forall p, ~ In p walk -> dest s' p = dest s p) /\
    (forall p, In p walk -> dest s' p = match dest s p with Some c => if ow then src s p else Some c | None => src s p end) /\
    (forall p, In p (written s') <-> In p (written s) \/
        (In p walk /\ (dest s p = None \/ ow = true \/ dest s p = src s p))).
Proof.
  induction walk as [|p r IH]; intros s ND HD HS; cbn [move_all].
  - exists s. repeat split; auto; try (intros ? []); intros [H|[[] _]]; exact H.
  - inversion ND as [|? ? N1 N2]; subst.
    assert (E : exists s1, move_one ow hd s p = Ok s1 /\ src_present s1 = src_present s /\
       src s1 = put_file (src s) p None /\
       dest s1 = (if match dest s p with Some _ => if ow then true else content_eqb (src s p) (dest s p) | None => true end
                  then put_file (dest s) p (src s p) else dest s) /\
       written s1 = written s ++ (if match dest s p with Some _ => if ow then true else content_eqb (src s p) (dest s p) | None => true end
                  then [p] else [])).
    { unfold move_one. rewrite HD by now left.
      destruct (match dest s p with Some _ => _ | None => _ end); eexists; split; try reflexivity; cbn; auto.
      rewrite app_nil_r. auto. }
    destruct E as (s1 & E1 & E2 & E3 & E4 & E5). rewrite E1. cbn [bind].
    destruct (IH s1 N2) as (s' & A & B & C & D & G & H & I).
    + intros q Hq. apply HD. now right.
    + intros q Hq. rewrite E3, put_other by (intros ->; auto). apply HS. now right.
    + exists s'. split; [exact A|]. split; [congruence|].
      assert (Dst : forall q, q <> p -> dest s1 q = dest s q).
      { intros q Hq. rewrite E4. destruct (match dest s p with Some _ => _ | None => _ end); auto. now apply put_other; auto. }
      assert (Dp : dest s1 p = match dest s p with Some c => if ow then src s p else Some c | None => src s p end).
      { rewrite E4. destruct (dest s p) as [c|] eqn:K; [|now rewrite put_same].
        destruct ow; [now rewrite put_same|].
        destruct (content_eqb (src s p) (Some c)) eqn:CE; [|exact K].
        rewrite put_same. destruct (src s p) as [x|]; cbn in CE; [|discriminate]. apply str_eqb_eq in CE. now subst. }
      split; [|split; [|split; [|split]]].
      * intros q [<-|Hq]; [|auto]. rewrite D by auto. rewrite E3. apply put_same.
      * intros q Hq. rewrite D by (intros K; apply Hq; now right). rewrite E3. apply put_other. intros ->; apply Hq; now left.
      * intros q Hq. rewrite G by (intros K; apply Hq; now right). apply Dst. intros ->. apply Hq. now left.
      * intros q [<-|Hq].
        { rewrite G by auto. exact Dp. }
        { rewrite H by auto. rewrite Dst by (intros ->; auto).
          rewrite E3, put_other by (intros ->; auto). reflexivity. }
      * intros q. rewrite I, E5, in_app_iff.
        assert (Q : In q (if match dest s p with Some _ => if ow then true else content_eqb (src s p) (dest s p) | None => true end then [p] else [])
                    <-> q = p /\ (dest s p = None \/ ow = true \/ dest s p = src s p)).
        { destruct (dest s p) as [c|] eqn:K.
          - destruct ow; cbn; [intuition congruence|].
            destruct (src s p) as [x|] eqn:SX; [|exfalso; apply (HS p); [now left|exact SX]].
            cbn [content_eqb]. destruct (str_eqb x c) eqn:CE; cbn.
            + apply str_eqb_eq in CE. subst. intuition congruence.
            + apply str_eqb_neq in CE. split; [tauto|]. intros (-> & [K1|[K1|K1]]); congruence.
          - cbn. intuition congruence. }
        rewrite Q. split.
        { intros [[K|[-> K]]|(K1 & K2)]; auto.
          - right. split; [now left|exact K].
          - right. split; [now right|]. rewrite Dst in K2 by (intros ->; auto).
            rewrite E3, put_other in K2 by (intros ->; auto). exact K2. }
        { intros [K|([<-|K1] & K2)]; auto.
          right. split; auto. rewrite Dst by (intros ->; auto).
          rewrite E3, put_other by (intros ->; auto). exact K2. }
Qed.

(* ---- file lists ---- *)
Lemma check_good F f : (0 <? check_existing F f) = false <-> good F f.
Proof.
  unfold check_existing, good. destruct (fs_exists F f), (fs_readable F f); cbn; split; intros; try discriminate; try tauto;
    destruct H; discriminate.
Qed.
Lemma check_bad F f : (0 <? check_existing F f) = true <-> ~ good F f.
Proof.
  rewrite <- check_good. destruct (0 <? check_existing F f); split; intros; congruence || auto.
Qed.

(* growth of the accumulated state *)
Definition grows (a a' : acc) : Prop :=
  exists m t e, a_master a' = a_master a ++ m /\ a_txt a' = a_txt a ++ t /\ a_errs a' = a_errs a ++ e.
Lemma grows_refl a : grows a a.
Proof. exists [], [], []. now rewrite !app_nil_r. Qed.
Lemma grows_trans a b c : grows a b -> grows b c -> grows a c.
Proof.
  intros (m & t & e & A & B & C) (m' & t' & e' & A' & B' & C').
  exists (m ++ m'), (t ++ t'), (e ++ e'). rewrite A', B', C', A, B, C, !app_assoc. auto.
Qed.
Lemma grows_in a b : grows a b ->
  (forall x, In x (a_master a) -> In x (a_master b)) /\ (forall x, In x (a_txt a) -> In x (a_txt b)) /\
  (forall x, In x (a_errs a) -> In x (a_errs b)).
Proof.
  intros (m & t & e & -> & -> & ->). repeat split; intros; apply in_or_app; auto.
Qed.

Lemma NoDup_snoc {A} (l : list A) x : NoDup l -> ~ In x l -> NoDup (l ++ [x]).
Proof.
  intros H N. eapply Permutation_NoDup; [apply Permutation_cons_append|]. now constructor.
Qed.

Lemma add_unique_spec F : forall files m e m' e',
  add_unique F files m e = (m', e') ->
  (exists x y, m' = m ++ x /\ e' = e ++ y /\
     (forall f, In f x -> In f files /\ good F f) /\ (forall f, In f y -> In f files /\ ~ good F f)) /\
  (NoDup m -> NoDup m') /\
  (forall f, In f files -> (good F f -> In f m') /\ (~ good F f -> In f e')).
Proof.
  induction files as [|f r IH]; intros m e m' e' H; cbn [add_unique] in H.
  - injection H as <- <-. split; [|split; auto; intros f []].
    exists [], []. rewrite !app_nil_r. split; [auto|]. split; [auto|]. split; intros f [].
  - destruct (0 <? check_existing F f) eqn:C.
    + apply check_bad in C. destruct (IH _ _ _ _ H) as ((x & y & A & B & D & E) & ND & IN).
      split; [|split; auto].
      * exists x, (f :: y). rewrite B, <- app_assoc. cbn [app]. split; [auto|]. split; [auto|]. split.
        -- intros g Hg. destruct (D g Hg). split; [now right|auto].
        -- intros g [<-|Hg]; [split; [now left|auto]|]. destruct (E g Hg). split; [now right|auto].
      * intros g [<-|Hg]; [|auto]. split; [tauto|]. intros _. rewrite B. apply in_or_app. left. apply in_or_app. right. now left.
    + apply check_good in C. destruct (existsb (str_eqb f) m) eqn:X.
      * apply existsb_str in X. destruct (IH _ _ _ _ H) as ((x & y & A & B & D & E) & ND & IN).
        split; [|split; auto].
        -- exists x, y. split; [auto|]. split; [auto|]. split.
           ++ intros g Hg. destruct (D g Hg). split; [now right|auto].
           ++ intros g Hg. destruct (E g Hg). split; [now right|auto].
        -- intros g [<-|Hg]; [|auto]. split; [|tauto]. intros _. rewrite A. apply in_or_app. now left.
      * apply existsb_str_false in X. destruct (IH _ _ _ _ H) as ((x & y & A & B & D & E) & ND & IN).
        split; [|split].
        -- exists (f :: x), y. rewrite A, <- app_assoc. cbn [app]. split; [auto|]. split; [auto|]. split.
           ++ intros g [<-|Hg]; [split; [now left|auto]|]. destruct (D g Hg). split; [now right|auto].
           ++ intros g Hg. destruct (E g Hg). split; [now right|auto].
        -- intros K. apply ND. now apply NoDup_snoc.
        -- intros g [<-|Hg]; [|auto]. split; [|tauto]. intros _. rewrite A. apply in_or_app. left. apply in_or_app. right. now left.
Qed.

Section Int.
Variable F : fsys.
Variable suffices : list str.

Definition bad_txt_pattern n r := is_list_entry F suffices n r /\ fs_glob F (full_name F n r) = [].

Definition done (a : acc) (n r : str) : Prop :=
  (forall f, names_file F suffices n r f -> (good F f -> In f (a_master a)) /\ (~ good F f -> In f (a_errs a))) /\
  (forall t, names_list F suffices n r t -> In t (a_txt a)) /\
  (bad_txt_pattern n r -> In (full_name F n r) (a_errs a)).
Definition txt_done (a : acc) (t : str) : Prop :=
  (~ good F t -> In t (a_errs a)) /\ forall n, list_entry F t n -> done a n (fs_dirname F t).

Lemma done_mono a b n r : grows a b -> done a n r -> done b n r.
Proof using.
  intros G (A & B & C). destruct (grows_in _ _ G) as (G1 & G2 & G3). split; [|split].
  - intros f Hf. destruct (A f Hf). split; auto.
  - auto.
  - auto.
Qed.
Lemma txt_done_mono a b t : grows a b -> txt_done a t -> txt_done b t.
Proof using.
  intros G (A & B). destruct (grows_in _ _ G) as (G1 & G2 & G3). split; auto.
  intros n H. eapply done_mono; eauto.
Qed.

Lemma read_pathnames_spec t : forall fl es, read_pathnames F t = (fl, es) ->
  (forall n, In n fl <-> list_entry F t n) /\ (good F t -> es = []) /\ (~ good F t -> es = [t]).
Proof using.
  intros fl es H. unfold read_pathnames in H. destruct (0 <? check_existing F t) eqn:C.
  - apply check_bad in C. injection H as <- <-. split; [|split; tauto].
    intros n. split; [intros []|]. intros (G & _). contradiction.
  - apply check_good in C. injection H as <- <-. split; [|split; tauto].
    intros n. rewrite in_flat_map. unfold list_entry. split.
    + intros (line & H1 & H2). split; auto. destruct (strip line) as [|c rest] eqn:E; [destruct H2|].
      destruct (Ascii.eqb c "#") eqn:E1; [destruct H2|]. destruct (Ascii.eqb c "!") eqn:E2; [destruct H2|].
      apply Ascii.eqb_neq in E1, E2. destruct H2 as [<-|[]]. exists line, c, rest. auto 10.
    + intros (_ & line & c & rest & H1 & H2 & H3 & H4 & ->). exists line. split; auto. rewrite H2.
      apply Ascii.eqb_neq in H3, H4. rewrite H3, H4. now left.
Qed.

(* reachability from a set of entries, with the steps at the front *)
Inductive reach : str -> str -> str -> str -> Prop :=
| reach_refl n r : reach n r n r
| reach_step n r t n' n2 r2 : names_list F suffices n r t -> list_entry F t n' ->
    reach n' (fs_dirname F t) n2 r2 -> reach n r n2 r2.

(* what one call adds is accounted for *)
Definition sound_from (names : list str) (root : str) (a a' : acc) : Prop :=
  exists m t e, a_master a' = a_master a ++ m /\ a_txt a' = a_txt a ++ t /\ a_errs a' = a_errs a ++ e /\
    (forall f, In f m -> exists n n' r', In n names /\ reach n root n' r' /\ names_file F suffices n' r' f /\ good F f) /\
    (forall x, In x e -> exists n n' r', In n names /\ reach n root n' r' /\ problem F suffices n' r' x) /\
    (forall x, In x t -> exists p, In x (fs_glob F p)).
Lemma sound_grows names root a a' : sound_from names root a a' -> grows a a'.
Proof using. intros (m & t & e & A & B & C & _). exists m, t, e. auto. Qed.
Lemma sound_app names root a b c : sound_from names root a b -> sound_from names root b c -> sound_from names root a c.
Proof using.
  intros (m & t & e & A & B & C & D & E & G) (m' & t' & e' & A' & B' & C' & D' & E' & G').
  exists (m ++ m'), (t ++ t'), (e ++ e').
  rewrite A', B', C', A, B, C, !app_assoc.
  repeat split; auto; intros x Hx; apply in_app_iff in Hx as [Hx|Hx]; auto.
Qed.
Lemma sound_incl names names' root a b : incl names names' -> sound_from names root a b -> sound_from names' root a b.
Proof using.
  intros I (m & t & e & A & B & C & D & E & G). exists m, t, e. repeat split; auto.
  - intros f Hf. destruct (D f Hf) as (n & n' & r' & X). exists n, n', r'. intuition.
  - intros f Hf. destruct (E f Hf) as (n & n' & r' & X). exists n, n', r'. intuition.
Qed.

(* full contract of a processing step on a list of entries *)
Definition contract (names : list str) (root : str) (a a' : acc) : Prop :=
  sound_from names root a a' /\
  (NoDup (a_master a) -> NoDup (a_master a')) /\ (NoDup (a_txt a) -> NoDup (a_txt a')) /\
  (forall n, In n names -> done a' n root) /\
  (forall t, In t (a_txt a') -> In t (a_txt a) \/ txt_done a' t).

Section Rec.
Variable rec : list str -> str -> acc -> option acc.
Hypothesis REC : forall names root a a', rec names root a = Some a' -> contract names root a a'.

Lemma do_txt_spec n root : forall tfiles a a',
  (forall t, In t tfiles -> names_list F suffices n root t) ->
  do_txt F rec tfiles a = Some a' ->
  sound_from [n] root a a' /\
  (NoDup (a_master a) -> NoDup (a_master a')) /\ (NoDup (a_txt a) -> NoDup (a_txt a')) /\
  (forall t, In t tfiles -> In t (a_txt a')) /\
  (forall t, In t (a_txt a') -> In t (a_txt a) \/ txt_done a' t).
Proof using REC.
  induction tfiles as [|t r IH]; intros a a' HT H; cbn [do_txt] in H.
  - injection H as <-. split; [|repeat split; auto; intros t []].
    exists [], [], []. rewrite !app_nil_r. repeat split; auto; intros ? [].
  - destruct (existsb (str_eqb t) (a_txt a)) eqn:X.
    + apply existsb_str in X. destruct (IH a a') as (A & B & C & D & E); auto.
      { intros; apply HT; now right. }
      repeat split; auto. intros u [<-|Hu]; auto. apply sound_grows in A. now apply (grows_in _ _ A).
    + apply existsb_str_false in X.
      destruct (read_pathnames F t) as [fl es] eqn:RP. destruct (read_pathnames_spec t fl es RP) as (RP1 & RP2 & RP3).
      destruct (rec fl (fs_dirname F t) _) as [a1|] eqn:RE; [|discriminate].
      pose proof (REC _ _ _ _ RE) as (S1 & N1 & N2 & DN & TD). cbn [a_master a_txt a_errs] in *.
      assert (NL : names_list F suffices n root t) by (apply HT; now left).
      assert (S1' : sound_from [n] root a a1).
      { destruct S1 as (m & tt & e & A & B & C & D & E & G). cbn [a_master a_txt a_errs] in *.
        exists m, (t :: tt), (es ++ e). rewrite B, C, <- !app_assoc. cbn [app]. repeat split; auto.
        - intros f Hf. destruct (D f Hf) as (n1 & n' & r' & I1 & R1 & K1 & K2). exists n, n', r'.
          split; [now left|]. split; [|auto]. eapply reach_step; [exact NL|apply RP1; exact I1|exact R1].
        - intros x Hx. apply in_app_iff in Hx as [Hx|Hx].
          + exists n, n, root. split; [now left|]. split; [constructor|].
            assert (NG : ~ good F t) by (intros GG; rewrite (RP2 GG) in Hx; destruct Hx).
            rewrite (RP3 NG) in Hx. destruct Hx as [<-|[]]. right. left. auto.
          + destruct (E x Hx) as (n1 & n' & r' & I1 & R1 & K1). exists n, n', r'.
            split; [now left|]. split; [|auto]. eapply reach_step; [exact NL|apply RP1; exact I1|exact R1].
        - intros x [<-|Hx]; [|auto]. exists (full_name F n root). apply NL. }
      destruct (IH a1 a') as (A & B & C & D & E); auto.
      { intros; apply HT; now right. }
      split; [eapply sound_app; eauto|]. split; [auto|]. split.
      { intros K. apply C, N2. now apply NoDup_snoc. }
      assert (T1 : In t (a_txt a1)).
      { apply sound_grows in S1. apply (grows_in _ _ S1). cbn. apply in_or_app. right. now left. }
      split.
      { intros u [<-|Hu]; [|auto]. apply sound_grows in A. now apply (grows_in _ _ A). }
      intros u Hu. destruct (E u Hu) as [Hu1|Hu1]; [|now right].
      destruct (TD u Hu1) as [Hu2|Hu2].
      * apply in_app_iff in Hu2 as [Hu2|[<-|[]]]; [now left|]. right.
        apply sound_grows in A. apply txt_done_mono with (a := a1); [exact A|]. split.
        -- intros NG. apply sound_grows in S1. apply (grows_in _ _ S1). cbn. rewrite (RP3 NG). apply in_or_app. right. now left.
        -- intros n1 Hn1. apply DN. now apply RP1.
      * right. apply sound_grows in A. now apply txt_done_mono with (a := a1).
Qed.

Lemma do_name_spec n root a a' : do_name F suffices rec n root a = Some a' -> contract [n] root a a'.
Proof using REC.
  unfold do_name. fold (full_name F n root). intros H.
  destruct (fs_isdir F (full_name F n root)) eqn:DIR.
  - injection H as H.
    assert (G : forall l a a', incl l suffices ->
       fold_left (fun a s => let '(m, e) := add_unique F (fs_glob F (glob_suffix (full_name F n root) s)) (a_master a) (a_errs a) in mkAcc m (a_txt a) e) l a = a' ->
       a_txt a' = a_txt a /\ sound_from [n] root a a' /\ (NoDup (a_master a) -> NoDup (a_master a')) /\
       forall s f, In s l -> In f (fs_glob F (glob_suffix (full_name F n root) s)) ->
          (good F f -> In f (a_master a')) /\ (~ good F f -> In f (a_errs a'))).
    { clear H a a'. induction l as [|s l IH]; intros a a' I H; cbn [fold_left] in H.
      - subst a'. split; [auto|]. split; [|split; auto; intros s f []].
        exists [], [], []. rewrite !app_nil_r. repeat split; auto; intros ? [].
      - destruct (add_unique F _ (a_master a) (a_errs a)) as [m e] eqn:AU.
        destruct (add_unique_spec _ _ _ _ _ _ AU) as ((x & y & A & B & D & E) & ND & IN).
        destruct (IH (mkAcc m (a_txt a) e) a') as (T1 & S1 & N1 & IN1); auto.
        { intros z Hz. apply I. now right. }
        split; [exact T1|]. split; [|split].
        + eapply sound_app; [|exact S1]. exists x, [], y. cbn [a_master a_txt a_errs]. rewrite app_nil_r.
          repeat split; auto.
          * intros f Hf. exists n, n, root. split; [now left|]. split; [constructor|]. split; [|now apply D].
            left. split; auto. exists s. split; [apply I; now left|now apply D].
          * intros f Hf. exists n, n, root. split; [now left|]. split; [constructor|]. left. split; [|now apply E].
            left. split; auto. exists s. split; [apply I; now left|now apply E].
          * intros ? [].
        + auto.
        + intros s' f [<-|Hs] Hf; [|now apply (IN1 s')].
          destruct (IN f Hf) as [P1 P2]. apply sound_grows in S1. destruct (grows_in _ _ S1) as (G1 & _ & G3). cbn in G1, G3. split; auto. }
    destruct (G suffices a a' (incl_refl _) H) as (T1 & S1 & N1 & IN1).
    split; [exact S1|]. split; [exact N1|]. split; [now rewrite T1|]. split; [|intros t Ht; left; congruence].
    intros n' [<-|[]]. split; [|split].
    + intros f [(_ & s & Hs & Hf)|(K & _)]; [|congruence]. now apply (IN1 s f).
    + intros t ((K & _) & _). congruence.
    + intros ((K & _) & _). congruence.
  - destruct (existsb (str_eqb (suffix_of n)) suffices) eqn:SF.
    + apply existsb_str in SF. destruct (add_unique F _ (a_master a) (a_errs a)) as [m e] eqn:AU. injection H as <-.
      destruct (add_unique_spec _ _ _ _ _ _ AU) as ((x & y & A & B & D & E) & ND & IN).
      split; [|split; [exact ND|split; [auto|split; [|auto]]]].
      * exists x, [], y. cbn [a_master a_txt a_errs]. rewrite app_nil_r. repeat split; auto.
        -- intros f Hf. exists n, n, root. split; [now left|]. split; [constructor|]. split; [|now apply D].
           right. repeat split; auto. now apply D.
        -- intros f Hf. exists n, n, root. split; [now left|]. split; [constructor|]. left. split; [|now apply E].
           right. repeat split; auto. now apply E.
        -- intros ? [].
      * intros n' [<-|[]]. cbn. split; [|split].
        -- intros f [(K & _)|(_ & _ & Hf)]; [congruence|]. now apply IN.
        -- intros t ((_ & K & _) & _). contradiction.
        -- intros ((_ & K & _) & _). contradiction.
    + apply existsb_str_false in SF. destruct (str_eqb (suffix_of n) (L "txt")) eqn:TX.
      * apply str_eqb_eq in TX.
        destruct (fs_glob F (full_name F n root)) as [|t0 tr] eqn:GL.
        -- injection H as <-. split; [|split; [auto|split; [auto|split; [|auto]]]].
           ++ exists [], [], [full_name F n root]. cbn [a_master a_txt a_errs]. rewrite !app_nil_r. repeat split; auto.
              ** intros ? []. ** intros x [<-|[]]. exists n, n, root. split; [now left|]. split; [constructor|].
                 right. right. split; [|auto]. repeat split; auto.
              ** intros ? [].
           ++ intros n' [<-|[]]. cbn. split; [|split].
              ** intros f [(K & _)|(_ & K & _)]; [congruence|contradiction].
              ** intros t (_ & K). rewrite GL in K. destruct K.
              ** intros _. apply in_or_app. right. now left.
        -- rewrite <- GL in H.
           assert (LE : is_list_entry F suffices n root) by (repeat split; auto).
           destruct (fs_glob F (full_name F n root)) eqn:GL'; [discriminate|]. rewrite <- GL' in H.
           destruct (do_txt_spec n root _ a a' (fun t Ht => conj LE Ht) H) as (A & B & C & D & E).
           split; [exact A|]. split; [exact B|]. split; [exact C|]. split; [|exact E].
           intros n' [<-|[]]. split; [|split].
           ++ intros f [(K & _)|(_ & K & _)]; [congruence|contradiction].
           ++ intros t (_ & K). now apply D.
           ++ intros (_ & K). congruence.
      * apply str_eqb_neq in TX. injection H as <-.
        split; [|split; [auto|split; [auto|split; [|auto]]]].
        -- exists [], [], []. rewrite !app_nil_r. repeat split; auto; intros ? [].
        -- intros n' [<-|[]]. split; [|split].
           ++ intros f [(K & _)|(_ & K & _)]; [congruence|contradiction].
           ++ intros t ((_ & _ & K) & _). contradiction.
           ++ intros ((_ & _ & K) & _). contradiction.
Qed.

Lemma do_names_spec : forall names root a a', do_names F suffices rec names root a = Some a' -> contract names root a a'.
Proof using REC.
  induction names as [|n r IH]; intros root a a' H; cbn [do_names] in H.
  - injection H as <-. split; [|split; [auto|split; [auto|split; [intros n []|auto]]]].
    exists [], [], []. rewrite !app_nil_r. repeat split; auto; intros ? [].
  - destruct (do_name F suffices rec n root a) as [a1|] eqn:E; [|discriminate].
    apply do_name_spec in E as (S1 & M1 & T1 & D1 & TD1).
    destruct (IH _ _ _ H) as (S2 & M2 & T2 & D2 & TD2).
    split; [|split; [auto|split; [auto|split]]].
    + eapply sound_app; [eapply sound_incl; [|exact S1]|eapply sound_incl; [|exact S2]].
      * intros x [<-|[]]. now left. * intros x Hx. now right.
    + intros x [<-|Hx]; [|auto]. apply sound_grows in S2. eapply done_mono; [exact S2|]. apply D1. now left.
    + intros t Ht. destruct (TD2 t Ht) as [K|K]; [|now right]. destruct (TD1 t K) as [K2|K2]; [now left|].
      right. apply sound_grows in S2. now apply txt_done_mono with (a := a1).
Qed.
End Rec.

Lemma int_spec : forall fuel names root a a',
  file_list_int fuel F suffices names root a = Some a' -> contract names root a a'.
Proof using.
  induction fuel as [|n IH]; intros names root a a' H; cbn [file_list_int] in H; [discriminate|].
  eapply do_names_spec; [|exact H]. exact IH.
Qed.

(* ---- termination ---- *)
Section Term.
Variable U : list str.
Hypothesis HU : forall p f, In f (fs_glob F p) -> In f U.
Definition ok_acc (a : acc) : Prop := NoDup (a_txt a) /\ incl (a_txt a) U.

Lemma contract_ok names root a a' : contract names root a a' -> ok_acc a -> ok_acc a'.
Proof using HU.
  intros (S & _ & T & _) (O1 & O2). split; auto.
  destruct S as (m & t & e & _ & B & _ & _ & _ & G). rewrite B. intros x Hx. apply in_app_iff in Hx as [Hx|Hx]; auto.
  destruct (G x Hx) as [p Hp]. eauto.
Qed.
Lemma contract_len names root a a' : contract names root a a' -> length (a_txt a) <= length (a_txt a').
Proof using. intros ((m & t & e & _ & B & _) & _). rewrite B, app_length. lia. Qed.

Lemma int_terminates : forall fuel names root a, ok_acc a -> length U - length (a_txt a) < fuel ->
  exists a', file_list_int fuel F suffices names root a = Some a'.
Proof using HU.
  induction fuel as [|k IH]; intros names root a O HL; [lia|]. cbn [file_list_int].
  set (rec := fun names root a => file_list_int k F suffices names root a).
  assert (REC : forall names root a a', rec names root a = Some a' -> contract names root a a') by (intros; eapply int_spec; eauto).
  assert (TX : forall n root tfiles a, (forall t, In t tfiles -> names_list F suffices n root t) ->
     ok_acc a -> length U - length (a_txt a) < S k -> exists a', do_txt F rec tfiles a = Some a').
  { intros n r0. induction tfiles as [|t tr IHt]; intros b HT Ob Lb; cbn [do_txt]; [eauto|].
    destruct (existsb (str_eqb t) (a_txt b)) eqn:X; [apply IHt; auto; intros; apply HT; now right|].
    apply existsb_str_false in X. destruct (read_pathnames F t) as [fl es] eqn:RP.
    assert (O' : ok_acc (mkAcc (a_master b) (a_txt b ++ [t]) (a_errs b ++ es))).
    { destruct Ob as [Ob1 Ob2]. split; cbn; [now apply NoDup_snoc|].
      intros x Hx. apply in_app_iff in Hx as [Hx|[<-|[]]]; auto. eapply HU. apply (HT t). now left. }
    assert (Lt : length (a_txt b) < length U).
    { destruct Ob as [Ob1 Ob2]. destruct O' as [O1 O2]. cbn in O1, O2.
      pose proof (NoDup_incl_length O1 O2) as K. rewrite app_length in K. cbn in K. lia. }
    destruct (IH fl (fs_dirname F t) _ O') as (a1 & E1).
    { cbn [a_txt]. rewrite app_length. cbn. lia. }
    fold (rec fl (fs_dirname F t) (mkAcc (a_master b) (a_txt b ++ [t]) (a_errs b ++ es))) in E1. rewrite E1.
    pose proof (REC _ _ _ _ E1) as K.
    apply IHt.
    - intros; apply HT; now right.
    - eapply contract_ok; eauto.
    - pose proof (contract_len _ _ _ _ K) as K2. cbn in K2. rewrite app_length in K2. cbn in K2. lia. }
  assert (NM : forall n root a, ok_acc a -> length U - length (a_txt a) < S k -> exists a', do_name F suffices rec n root a = Some a').
  { intros n r0 b Ob Lb. unfold do_name. fold (full_name F n r0).
    destruct (fs_isdir F (full_name F n r0)) eqn:DIR; [eauto|].
    destruct (existsb (str_eqb (suffix_of n)) suffices) eqn:SF.
    { destruct (add_unique _ _ _ _). eauto. }
    destruct (str_eqb (suffix_of n) (L "txt")) eqn:TT; [|eauto].
    destruct (fs_glob F (full_name F n r0)) as [|t0 tr] eqn:GL; [eauto|].
    rewrite <- GL. destruct (fs_glob F (full_name F n r0)) eqn:GL' in |- *; [congruence|]. rewrite <- GL'.
    apply (TX n r0); auto. intros t Ht. split; [|exact Ht].
    apply existsb_str_false in SF. apply str_eqb_eq in TT. repeat split; auto. }
  revert root a O HL. induction names as [|n r IHn]; intros root a O HL; cbn [do_names]; [eauto|].
  destruct (NM n root a O HL) as (a1 & E1). rewrite E1.
  pose proof (do_name_spec rec REC _ _ _ _ E1) as K.
  apply IHn; [eapply contract_ok; eauto|]. pose proof (contract_len _ _ _ _ K). lia.
Qed.
End Term.

(* more fuel does not change a result *)
Lemma int_fuel : forall fuel fuel' names root a a', fuel <= fuel' ->
  file_list_int fuel F suffices names root a = Some a' -> file_list_int fuel' F suffices names root a = Some a'.
Proof using.
  induction fuel as [|k IH]; intros [|k'] names root a a' HL H; try (cbn in H; discriminate); [lia|].
  cbn [file_list_int] in *.
  assert (REC : forall nm rt b b', file_list_int k F suffices nm rt b = Some b' -> file_list_int k' F suffices nm rt b = Some b')
    by (intros; apply IH; [lia|assumption]).
  assert (TX : forall tf b b', do_txt F (fun n r a => file_list_int k F suffices n r a) tf b = Some b' ->
                do_txt F (fun n r a => file_list_int k' F suffices n r a) tf b = Some b').
  { induction tf as [|t tr IHt]; intros b b'; cbn [do_txt]; auto.
    destruct (existsb _ _); auto. destruct (read_pathnames F t).
    destruct (file_list_int k F suffices _ _ _) eqn:E; [|discriminate]. rewrite (REC _ _ _ _ E). auto. }
  revert root a a' H. induction names as [|n r IHn]; intros root a a' H; cbn [do_names] in *; auto.
  destruct (do_name F suffices (fun n r a => file_list_int k F suffices n r a) n root a) as [a1|] eqn:E; [|discriminate].
  assert (E' : do_name F suffices (fun n r a => file_list_int k' F suffices n r a) n root a = Some a1).
  { revert E. unfold do_name. destruct (fs_isdir _ _); auto. destruct (existsb _ _); auto. destruct (str_eqb _ _); auto.
    destruct (fs_glob F _); auto. }
  rewrite E'. auto.
Qed.

Lemma do_names_app rec : forall n1 n2 root a,
  do_names F suffices rec (n1 ++ n2) root a =
  match do_names F suffices rec n1 root a with Some a1 => do_names F suffices rec n2 root a1 | None => None end.
Proof using.
  induction n1 as [|x n1 IH]; intros n2 root a; cbn [app do_names]; [reflexivity|].
  destruct (do_name _ _ _ _ _ _); auto.
Qed.

(* reachability in the two forms *)
Lemma reach_reached names root n : In n names -> forall n' r', reach n root n' r' -> reached F suffices names root n' r'.
Proof using.
  intros Hn n' r' R.
  assert (G : forall n1 r1, reach n1 r1 n' r' -> reached F suffices names root n1 r1 -> reached F suffices names root n' r').
  { clear. intros n1 r1 R. induction R; auto. intros K. apply IHR. econstructor; eauto. }
  eapply G; [exact R|]. now constructor.
Qed.
End Int.
