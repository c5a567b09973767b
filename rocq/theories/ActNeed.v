From Coq Require Import List Ascii String ZArith Bool Lia Arith.
From Verif Require Import PyStr Base CompatModel ActModel ActSpec ActProofs.
Import ListNotations.
Open Scope nat_scope. Open Scope list_scope.

Lemma contains_spec (sub s : str) : contains sub s = true <-> exists p q, s = p ++ sub ++ q.
Proof.
  assert (SW : forall s, startswith sub s = true <-> exists q, s = sub ++ q).
  { clear. intros s. unfold startswith. destruct (after_prefix sub s) as [r|] eqn:E.
    - apply after_prefix_some in E. split; eauto.
    - split; [discriminate|]. intros (q & ->). exfalso. clear - E. induction sub as [|c sub IH]; cbn in E; [discriminate|].
      rewrite Ascii.eqb_refl in E. auto. }
  induction s as [|c s IH]; cbn [contains].
  - rewrite orb_false_r, SW. split; [intros (q & ->); now exists [], q|].
    intros (p & q & E). symmetry in E. apply app_eq_nil in E as [-> E]. exists q. auto.
  - rewrite orb_true_iff, SW, IH. split.
    + intros [(q & ->)|(p & q & ->)]; [now exists [], q|]. now exists (c :: p), q.
    + intros (p & q & E). destruct p as [|x p]; [left; exists q; exact E|]. injection E as <- E. right. eauto.
Qed.

Section Need.
Variable define : str -> option pvar.
Variable known args : list str.
Let need := need known args.
Let absent (n : str) : Prop := ~ In n known /\ ~ In n args.

Definition adds (P : str -> Prop) (acc acc' : list str) : Prop :=
  (NoDup acc -> NoDup acc') /\ forall n, In n acc' <-> In n acc \/ (P n /\ ~ In n known /\ ~ In n args).
Lemma adds_refl acc : adds (fun _ => False) acc acc.
Proof. split; auto. intros n. tauto. Qed.
Lemma adds_trans P Q a b c : adds P a b -> adds Q b c -> adds (fun n => P n \/ Q n) a c.
Proof. intros [A1 A2] [B1 B2]. split; auto. intros n. rewrite B2, A2. tauto. Qed.
Lemma adds_ext P Q a b : (forall n, P n <-> Q n) -> adds P a b -> adds Q a b.
Proof. intros E [A B]. split; auto. intros n. rewrite B, E. tauto. Qed.
Lemma adds_need acc m : adds (eq m) acc (need acc m).
Proof.
  unfold need, ActModel.need. destruct (mem_str m known) eqn:K.
  - apply mem_str_in in K. split; auto. intros n. split; auto. intros [H|(-> & H & _)]; auto. contradiction.
  - apply mem_str_out in K. destruct (mem_str m (acc ++ args)) eqn:A.
    + apply mem_str_in, in_app_or in A. split; auto. intros n. split; auto. intros [H|(-> & _ & H)]; auto. destruct A; [auto|contradiction].
    + apply mem_str_out in A. assert (~ In m acc /\ ~ In m args) as [A1 A2] by (split; intros H; apply A, in_or_app; auto). split.
      * intros N. now apply NoDup_snoc.
      * intros n. rewrite in_app_iff. cbn [In]. split; [|intuition (subst; auto)]. intros [H|[<-|[]]]; auto.
Qed.
Lemma adds_needs l : forall acc, adds (fun n => In n l) acc (fold_left need l acc).
Proof.
  induction l as [|m l IH]; intros acc; cbn [fold_left]; [apply adds_refl|].
  eapply adds_ext; [|eapply adds_trans; [apply adds_need|apply IH]]. intros n. cbn. tauto.
Qed.

Definition mand_set (run : bool) (n : str) : Prop :=
  (define (L "horizontal_loop_extent") <> None /\ In n [L "ccpp_constant_one"; L "horizontal_loop_extent"]) \/
  (define (L "horizontal_loop_extent") = None /\ run = true /\
    define (L "horizontal_loop_begin") <> None /\ define (L "horizontal_loop_end") <> None /\
    define (L "ccpp_chunk_extent") <> None /\
    In n [L "horizontal_loop_begin"; L "horizontal_loop_end"; L "ccpp_chunk_extent"]).
Lemma defined_spec n : defined define n = true <-> define n <> None.
Proof. unfold defined. destruct (define n); split; intros; try discriminate; auto. Qed.
Lemma defined_false n : defined define n = false <-> define n = None.
Proof. unfold defined. destruct (define n); split; intros; try discriminate; auto. Qed.
Lemma adds_mandatory run : adds (mand_set run) [] (mandatory define known args run).
Proof.
  unfold mandatory. destruct (defined define (L "horizontal_loop_extent")) eqn:D.
  - apply defined_spec in D. eapply adds_ext; [|apply adds_needs]. intros n. unfold mand_set. tauto.
  - apply defined_false in D. match goal with |- adds _ _ (if ?b then _ else _) => destruct b eqn:B end.
    + apply andb_prop in B as [B B4]. apply andb_prop in B as [B B3]. apply andb_prop in B as [B1 B2].
      apply defined_spec in B2, B3, B4. eapply adds_ext; [|apply adds_needs]. intros n. unfold mand_set. tauto.
    + eapply adds_ext; [|apply adds_refl]. intros n. unfold mand_set. split; [tauto|].
      intros [[X _]|(_ & R & X2 & X3 & X4 & _)]; [congruence|]. apply defined_spec in X2, X3, X4. subst run. rewrite X2, X3, X4 in B. discriminate.
Qed.

Definition part_set (b n : str) : Prop := n = lower b /\ py_int (lower b) = None.
Lemma adds_dim acc b acc' : dim_need define known args acc b = Ok acc' -> adds (part_set b) acc acc'.
Proof.
  unfold dim_need. cbv zeta. destruct (py_int (lower b)) eqn:P.
  - intros [= <-]. eapply adds_ext; [|apply adds_refl]. intros n. unfold part_set. rewrite P. split; [tauto|]. intros [_ X]. discriminate.
  - destruct (mem_str (lower b) known) eqn:K.
    { intros [= <-]. apply mem_str_in in K. split; auto. intros n. split; auto. intros [H|((-> & _) & H & _)]; auto. contradiction. }
    destruct (mem_str (lower b) (acc ++ args)) eqn:A.
    { intros [= <-]. apply mem_str_in, in_app_or in A. split; auto. intros n. split; auto. intros [H|((-> & _) & _ & H)]; auto. destruct A; [auto|contradiction]. }
    destruct (defined define (lower b)); [|discriminate]. intros [= <-].
    pose proof (adds_need acc (lower b)) as H. unfold need, ActModel.need in H. rewrite K, A in H.
    eapply adds_ext; [|exact H]. intros n. unfold part_set. rewrite P. intuition.
Qed.
Lemma adds_fold {A} (f : list str -> A -> res (list str)) (P : A -> str -> Prop) :
  (forall acc x acc', f acc x = Ok acc' -> adds (P x) acc acc') ->
  forall l acc acc', fold_need f l acc = Ok acc' -> adds (fun n => exists x, In x l /\ P x n) acc acc'.
Proof.
  intros H. induction l as [|x l IH]; cbn [fold_need]; intros acc acc' E.
  - injection E as <-. eapply adds_ext; [|apply adds_refl]. intros n. split; [tauto|]. intros (? & [] & _).
  - apply bind_ok in E as (a & E1 & E2). eapply adds_ext; [|eapply adds_trans; [eapply H; eauto|eapply IH; eauto]].
    intros n. cbn [In]. split; [intros [X|(y & I & X)]; eauto|]. intros (y & [->|I] & X); eauto.
Qed.
Definition dims_set (v : pvar) (n : str) : Prop :=
  exists d b, In d (pv_dims v) /\ In b (split_on ":"%char d) /\ n = lower b /\ py_int (lower b) = None.
Lemma adds_dims acc v acc' : dims_need define known args acc (pv_dims v) = Ok acc' -> adds (dims_set v) acc acc'.
Proof.
  unfold dims_need. intros E. eapply adds_fold in E; [|exact adds_dim]. eapply adds_ext; [|exact E].
  intros n. unfold dims_set, part_set. split.
  - intros (b & I & X). apply in_concat in I as (l & I & J). apply in_map_iff in I as (d & <- & I). exists d, b. auto.
  - intros (d & b & I & J & X). exists b. split; auto. apply in_concat. exists (split_on ":"%char d). split; auto. now apply in_map.
Qed.
Definition block_set (run : bool) (v : pvar) (n : str) : Prop :=
  run = false /\ (exists p q, pv_local v = p ++ L "cdata%blk_no" ++ q) /\ In n [L "ccpp_block_count"; L "horizontal_dimension"].
Lemma adds_block run acc v : adds (block_set run v) acc (block_need known args run acc v).
Proof.
  unfold block_need. match goal with |- adds _ _ (if ?b then _ else _) => destruct b eqn:B end.
  - apply andb_prop in B as [B1 B2]. apply contains_spec in B2. apply negb_true_iff in B1.
    eapply adds_ext; [|apply adds_needs]. intros n. unfold block_set. tauto.
  - eapply adds_ext; [|apply adds_refl]. intros n. unfold block_set. split; [tauto|]. intros (-> & C & _). apply contains_spec in C. rewrite C in B. discriminate.
Qed.
Lemma item_need_name st n : good (TName n) ->
  item_need define known args st n = match define (lower n) with None => Raise "Exception: variable used in conditional not known to host model" | Some v => Ok (need (fst st) (lower n), snd st ++ pv_local v) end.
Proof.
  intros (c & r & -> & A & F). unfold item_need. cbv zeta. rewrite not_op_word.
  - change (lower (c :: r)) with (lower_c c :: lower r). rewrite py_int_alpha; auto. now apply lower_alpha.
  - cbn. now apply alpha_word, lower_alpha.
  - discriminate.
Qed.
Lemma item_need_int st d : good (TInt d) -> item_need define known args st d = Ok (fst st, snd st ++ d).
Proof.
  intros [N F]. unfold item_need. cbv zeta. rewrite lower_digits; auto. rewrite not_op_word; auto.
  - destruct (py_int_digits d N F) as [z ->]. reflexivity.
  - destruct d; cbn; auto. inversion F; subst. now apply digit_word.
Qed.
Lemma item_need_op st w : good (TOp w) -> item_need define known args st w = Ok (fst st, snd st ++ w).
Proof.
  intros I. cbn in I. unfold item_need. cbv zeta. rewrite lower_op; auto.
  assert (M : mem_str w words = true) by (apply mem_str_in; exact I). now rewrite M.
Qed.
Definition names_set (ts : list token) (n : str) : Prop := exists m, In (TName m) ts /\ n = lower m.
Lemma items_need_ok ts : Forall good ts -> forall st a c, items_need define known args (map text1 ts) st = Ok (a, c) ->
  adds (names_set ts) (fst st) a /\ exists o vs, c = snd st ++ o /\ image (fun n w => define n = Some w) pv_local ts o vs.
Proof.
  induction 1 as [|t ts G _ IH]; cbn [map items_need]; intros st a c E.
  - injection E as ->. split; [|exists [], []; split; [symmetry; apply app_nil_r|constructor]].
    eapply adds_ext; [|apply adds_refl]. intros n. split; [tauto|]. intros (m & [] & _).
  - destruct t as [n|d|w]; cbn [text1] in E.
    + rewrite item_need_name in E; auto. destruct (define (lower n)) as [v|] eqn:D; [|discriminate]. cbn [bind] in E.
      apply IH in E as (A & o & vs & -> & I). cbn [fst snd] in *. split.
      * eapply adds_ext; [|eapply adds_trans; [apply adds_need|exact A]]. intros x. unfold names_set. cbn [In]. split.
        -- intros [<-|(m & J & ->)]; eauto.
        -- intros (m & [[= ->]|J] & ->); [auto|right; eauto].
      * exists (pv_local v ++ o), (v :: vs). split; [now rewrite app_assoc|]. now constructor.
    + rewrite item_need_int in E; auto. cbn [bind] in E. apply IH in E as (A & o & vs & -> & I). cbn [fst snd] in *. split.
      * eapply adds_ext; [|exact A]. intros x. unfold names_set. cbn [In]. split; [intros (m & J & ->); eauto|]. intros (m & [[=]|J] & ->); eauto.
      * exists (d ++ o), vs. split; [now rewrite app_assoc|]. now constructor.
    + rewrite item_need_op in E; auto. cbn [bind] in E. apply IH in E as (A & o & vs & -> & I). cbn [fst snd] in *. split.
      * eapply adds_ext; [|exact A]. intros x. unfold names_set. cbn [In]. split; [intros (m & J & ->); eauto|]. intros (m & [[=]|J] & ->); eauto.
      * exists (w ++ o), vs. split; [now rewrite app_assoc|]. now constructor.
Qed.
Lemma items_need_total ts : Forall good ts -> (forall n, In (TName n) ts -> define (lower n) <> None) ->
  forall st, exists r, items_need define known args (map text1 ts) st = Ok r.
Proof.
  induction 1 as [|t ts G _ IH]; cbn [map items_need]; intros D st; [eauto|].
  assert (D' : forall n, In (TName n) ts -> define (lower n) <> None) by (intros; apply D; now right).
  destruct t as [n|d|w]; cbn [text1].
  - rewrite item_need_name; auto. specialize (D n (or_introl eq_refl)). destruct (define (lower n)); [|congruence]. cbn [bind]. now apply IH.
  - rewrite item_need_int; auto. cbn [bind]. now apply IH.
  - rewrite item_need_op; auto. cbn [bind]. now apply IH.
Qed.
Definition cond_set (v : pvar) (n : str) : Prop :=
  pv_active v <> L "T" /\ pv_active v <> L "F" /\ exists ts m, written ts /\ pv_active v = text ts /\ In (TName m) ts /\ n = lower m.
Lemma active_need_ok acc v a c : readable pvar pv_active v -> active_need define known args acc v = Ok (a, c) ->
  adds (cond_set v) acc a /\ condition_of pvar define pv_local pv_active v c.
Proof.
  intros R. unfold active_need. destruct (str_eqb (pv_active v) (L "T")) eqn:T.
  { apply str_eqb_eq in T. intros [= <- <-]. split.
    - eapply adds_ext; [|apply adds_refl]. intros n. unfold cond_set. tauto.
    - split; [auto|]. split; [intros F; rewrite T in F; discriminate|]. intros ts N. congruence. }
  apply str_eqb_neq in T. destruct (str_eqb (pv_active v) (L "F")) eqn:F.
  { apply str_eqb_eq in F. intros [= <- <-]. split.
    - eapply adds_ext; [|apply adds_refl]. intros n. unfold cond_set. tauto.
    - split; [congruence|]. split; [auto|]. intros ts N1 N2. congruence. }
  apply str_eqb_neq in F. destruct R as [R|[R|(ts & W & R)]]; try contradiction. rewrite R, items_of_text; auto. intros E.
  apply items_need_ok in E as (A & o & vs & -> & I); [|now apply written_good]. cbn [fst snd app] in *. split.
  - eapply adds_ext; [|exact A]. intros n. unfold names_set, cond_set. split.
    + intros (m & J & ->). rewrite R in T, F |- *. repeat split; auto. exists ts, m. auto.
    + intros (_ & _ & ts' & m & W' & E' & J & ->). exists m. split; auto.
      assert (S : map text1 ts' = map text1 ts) by (rewrite <- !items_of_text; auto; now rewrite <- E', R).
      assert (GM : good (TName m)) by (apply written_good in W'; rewrite Forall_forall in W'; now apply W').
      apply (in_map text1) in J. rewrite S in J. cbn [text1] in J. apply in_map_iff in J as (t & Et & Jt).
      assert (GT : good t) by (apply written_good in W; rewrite Forall_forall in W; now apply W).
      destruct GM as (c & r & -> & AC & _). destruct t as [n|d|w]; cbn [text1 good] in *.
      * now subst n.
      * subst d. destruct GT as [_ GT]. inversion GT as [|x y X Y]; subst. rewrite alpha_not_digit in X; auto. discriminate.
      * subst w. apply op_start in GT as (c' & r' & X & Y). injection X as <- _. rewrite (word_item _ (alpha_word _ AC)) in Y. discriminate.
  - split; [congruence|]. split; [congruence|]. intros ts' _ _ W' E'. exists vs.
    assert (S : map text1 ts' = map text1 ts) by (rewrite <- !items_of_text; auto; now rewrite <- E', R).
    assert (SE : ts' = ts).
    { apply written_good in W, W'. clear - S W W'. revert ts S W. induction W' as [|a l GA _ IH]; intros [|b ts] S W; try discriminate; auto.
      injection S as S1 S2. inversion W as [|x y GB W2]; subst. f_equal; [|now apply IH].
      destruct (good_text a GA) as (ca & ra & Ea & WA & NA). destruct (good_text b GB) as (cb & rb & Eb & WB & NB).
      destruct a as [n|d|w], b as [n'|d'|w']; cbn [text1 wordy good] in *; subst; auto; exfalso.
      - destruct GA as (c & r & X & AC & _). destruct GB as [_ F]. injection X as <- <-. inversion F as [|x z X2 Y]; subst. rewrite alpha_not_digit in X2; auto. discriminate.
      - specialize (NB (fun x => x)). specialize (WA I). injection Eb as <- <-. inversion WA; congruence.
      - destruct GB as (c & r & X & AC & _). destruct GA as [_ F]. injection X as <- <-. inversion F as [|x z X2 Y]; subst. injection Eb as <- <-. rewrite alpha_not_digit in X2; auto. discriminate.
      - specialize (NB (fun x => x)). specialize (WA I). injection Eb as <- <-. inversion WA; congruence.
      - specialize (NA (fun x => x)). specialize (WB I). injection Eb as <- <-. inversion WB; congruence.
      - specialize (NA (fun x => x)). specialize (WB I). injection Eb as <- <-. inversion WB; congruence. }
    now subst.
Qed.

Definition arg_set (run : bool) (a n : str) : Prop :=
  exists v, define a = Some v /\ (dims_set v n \/ block_set run v n \/ cond_set v n).
Lemma arg_need_ok run st a st' : (forall v, define a = Some v -> readable pvar pv_active v) ->
  arg_need define known args run st a = Ok st' ->
  adds (arg_set run a) (fst st) (fst st') /\
  exists v c, define a = Some v /\ condition_of pvar define pv_local pv_active v c /\ snd st' = put_cond (snd st) a c.
Proof.
  intros R. unfold arg_need. destruct (define a) as [v|] eqn:D; [|discriminate]. intros E.
  apply bind_ok in E as (l & E1 & E). apply bind_ok in E as ([l2 c] & E2 & [= <-]). cbn [fst snd].
  apply adds_dims in E1. apply active_need_ok in E2 as [E2 C]; auto. split.
  - eapply adds_ext; [|eapply adds_trans; [exact E1|eapply adds_trans; [apply (adds_block run l v)|exact E2]]].
    intros n. unfold arg_set. rewrite D. split; [intros; exists v; tauto|]. intros (v' & [= <-] & X). tauto.
  - exists v, c. auto.
Qed.
Lemma put_cond_keys cs n c x : In x (map fst (put_cond cs n c)) <-> In x (map fst cs) \/ x = n.
Proof.
  unfold put_cond. destruct (mem_str n (map fst cs)) eqn:M.
  - apply mem_str_in in M. split; auto. intros [H| ->]; auto.
  - rewrite map_app, in_app_iff. cbn. intuition.
Qed.
Lemma put_cond_in cs n c p : In p (put_cond cs n c) -> In p cs \/ p = (n, c).
Proof. unfold put_cond. destruct (mem_str n (map fst cs)); auto. rewrite in_app_iff. cbn. intuition. Qed.
Lemma put_cond_keep cs n c p : In p cs -> In p (put_cond cs n c).
Proof. unfold put_cond. destruct (mem_str n (map fst cs)); auto. rewrite in_app_iff. auto. Qed.
Lemma put_cond_nodup cs n c : NoDup (map fst cs) -> NoDup (map fst (put_cond cs n c)).
Proof.
  unfold put_cond. destruct (mem_str n (map fst cs)) eqn:M; auto. intros H. rewrite map_app. cbn. apply NoDup_snoc; auto. now apply mem_str_out.
Qed.
Lemma args_need_ok run l : (forall a v, In a l -> define a = Some v -> readable pvar pv_active v) ->
  forall st st', args_need define known args run l st = Ok st' ->
  adds (fun n => exists a, In a l /\ arg_set run a n) (fst st) (fst st') /\
  (NoDup (map fst (snd st)) -> NoDup (map fst (snd st'))) /\
  (forall p, In p (snd st) -> In p (snd st')) /\
  (forall a, In a l -> In a (map fst (snd st'))) /\
  (forall p, In p (snd st') -> In p (snd st) \/ (In (fst p) l /\ exists v, define (fst p) = Some v /\ condition_of pvar define pv_local pv_active v (snd p))).
Proof.
  induction l as [|a l IH]; cbn [args_need]; intros R st st' E.
  - injection E as <-. split; [|repeat split; auto; intros ? []]. eapply adds_ext; [|apply adds_refl]. intros n. split; [tauto|]. intros (? & [] & _).
  - apply bind_ok in E as (s & E1 & E2). apply arg_need_ok in E1 as (A1 & v & c & D & C & P); [|intros; eapply R; eauto; now left].
    apply IH in E2 as (A2 & N2 & K2 & M2 & O2); [|intros; eapply R; eauto; now right]. rewrite P in *. split; [|split; [|split; [|split]]].
    + eapply adds_ext; [|eapply adds_trans; [exact A1|exact A2]]. intros n. cbn [In]. split.
      * intros [X|(b & I & X)]; eauto.
      * intros (b & [<-|I] & X); eauto.
    + intros N. apply N2, put_cond_nodup, N.
    + intros p I. apply K2, put_cond_keep, I.
    + intros b [<-|I]; auto. assert (X : In a (map fst (put_cond (snd st) a c))) by (apply put_cond_keys; auto).
      apply in_map_iff in X as (p & X & Y). apply K2 in Y. rewrite <- X. now apply in_map.
    + intros p I. apply O2 in I as [I|(I & X)]; [|right; split; [now right|exact X]].
      apply put_cond_in in I as [I| ->]; auto. right. cbn [fst snd]. split; [now left|]. eauto.
Qed.
Lemma requirements_ok run cs add cs' :
  (forall a v, In a args -> define a = Some v -> readable pvar pv_active v) ->
  requirements define known args run cs = Ok (add, cs') ->
  NoDup add /\
  (forall n, In n add <-> wanted pvar define pv_local pv_dims pv_active run args n /\ ~ In n known /\ ~ In n args) /\
  (forall a, In a args -> In a (map fst cs')) /\ (forall p, In p cs -> In p cs') /\
  (NoDup (map fst cs) -> NoDup (map fst cs')) /\
  (forall a c, In (a, c) cs' -> ~ In (a, c) cs ->
     In a args /\ exists v, define a = Some v /\ condition_of pvar define pv_local pv_active v c).
Proof.
  intros R E. unfold requirements in E. apply args_need_ok in E as (A & N & K & M & O); auto. cbn [fst snd] in *.
  assert (B : adds (fun n => mand_set run n \/ exists a, In a args /\ arg_set run a n) [] add).
  { eapply adds_trans; [apply adds_mandatory|exact A]. }
  destruct B as [B1 B2]. repeat split; auto.
  - apply B1. constructor.
  - apply B2 in H as [[]|(H & H1 & H2)]. destruct H as [[[X1 X2]|(X1 & X2 & X3 & X4 & X5 & X6)]|(a & I & v & D & H)].
    + now apply wanted_extent.
    + now apply wanted_chunk.
    + destruct H as [(d & b & J1 & J2 & -> & J3)|[(J1 & (p & q & J2) & J3)|(T & F & ts & m & W & J & J2 & ->)]].
      * eapply wanted_dim; eauto.
      * eapply wanted_block; eauto.
      * eapply wanted_condition; eauto.
  - apply B2 in H as [[]|(H & H1 & H2)]. auto.
  - apply B2 in H as [[]|(H & H1 & H2)]. auto.
  - intros (H & H1 & H2). apply B2. right. split; auto. destruct H as [n X1 X2|n X1 X2 X3 X4 X5 X6|a v d b I D J1 J2 J3|a v p q n X I D J1 J2|a v ts n I D T F W J1 J2].
    + left. left. auto.
    + left. right. auto 10.
    + right. exists a. split; auto. exists v. split; auto. left. exists d, b. auto.
    + right. exists a. split; auto. exists v. split; auto. right. left. split; auto. split; eauto.
    + right. exists a. split; auto. exists v. split; auto. right. right. split; auto. split; auto. exists ts, n. auto.
  - apply O in H as [H|[H _]]; [contradiction|exact H].
  - apply O in H as [H|[_ H]]; [contradiction|exact H].
Qed.

(* success *)
Lemma dim_need_total acc b : (py_int (lower b) = None -> ~ In (lower b) known -> ~ In (lower b) args -> define (lower b) <> None) ->
  exists r, dim_need define known args acc b = Ok r.
Proof.
  intros H. unfold dim_need. cbv zeta. destruct (py_int (lower b)); [eauto|]. destruct (mem_str (lower b) known) eqn:K; [eauto|].
  destruct (mem_str (lower b) (acc ++ args)) eqn:A; [eauto|]. apply mem_str_out in K, A.
  assert (D : define (lower b) <> None) by (apply H; auto; intros X; apply A, in_or_app; auto). apply defined_spec in D. rewrite D. eauto.
Qed.
Lemma fold_need_total {A} (f : list str -> A -> res (list str)) l : (forall acc x, In x l -> exists r, f acc x = Ok r) ->
  forall acc, exists r, fold_need f l acc = Ok r.
Proof.
  induction l as [|x l IH]; intros H acc; cbn [fold_need]; [eauto|]. destruct (H acc x (or_introl eq_refl)) as [r ->]. cbn [bind].
  apply IH. intros; apply H; now right.
Qed.
Lemma requirements_total run cs :
  (forall a, In a args -> define a <> None) ->
  (forall a v, In a args -> define a = Some v -> readable pvar pv_active v) ->
  (forall n, wanted pvar define pv_local pv_dims pv_active run args n -> define n <> None) ->
  exists r, requirements define known args run cs = Ok r.
Proof.
  intros D R H. unfold requirements.
  assert (G : forall l, (forall a, In a l -> In a args) -> forall st, exists r, args_need define known args run l st = Ok r).
  { induction l as [|a l IH]; intros S st; cbn [args_need]; [eauto|].
    assert (IA : In a args) by (apply S; now left). unfold arg_need. destruct (define a) as [v|] eqn:Dv; [|now apply D in IA].
    destruct (fold_need_total (dim_need define known args) (concat (map (split_on ":"%char) (pv_dims v)))) with (acc := fst st) as [r1 E1].
    { intros acc b I. apply dim_need_total. intros P _ _. apply in_concat in I as (l' & I & J). apply in_map_iff in I as (d & <- & I).
      apply H. eapply wanted_dim; eauto. }
    unfold dims_need. rewrite E1. cbn [bind].
    assert (E2 : exists r, active_need define known args (block_need known args run r1 v) v = Ok r).
    { unfold active_need. destruct (str_eqb (pv_active v) (L "T")) eqn:T; [eauto|]. destruct (str_eqb (pv_active v) (L "F")) eqn:F; [eauto|].
      apply str_eqb_neq in T, F. destruct (R a v IA Dv) as [X|[X|(ts & W & X)]]; try contradiction. rewrite X, items_of_text; auto.
      apply items_need_total; [now apply written_good|]. intros n J. apply H. eapply wanted_condition; eauto. }
    destruct E2 as [r2 ->]. cbn [bind]. apply IH. intros; apply S; now right. }
  apply G. auto.
Qed.
End Need.
