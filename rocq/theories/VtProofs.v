(* Proofs about the code written around the call of a scheme. *)
From Coq Require Import List Ascii String ZArith QArith Bool Lia.
From Verif Require Import PyStr UnitModel VtModel VtSpec.
Import ListNotations.
Open Scope nat_scope. Open Scope list_scope.

Lemma mset_same m n o : mset m n o n = o.
Proof. unfold mset. now rewrite str_eqb_refl. Qed.
Lemma mset_other m n o x : x <> n -> mset m n o x = m x.
Proof. intros H. unfold mset. destruct (str_eqb x n) eqn:E; [apply str_eqb_eq in E; contradiction|reflexivity]. Qed.

Lemma nd_inj {A B} (f : A -> B) (l : list A) a b :
  NoDup (map f l) -> In a l -> In b l -> f a = f b -> a = b.
Proof.
  induction l as [|x l IH]; cbn; intros N Ia Ib E; [contradiction|].
  inversion N; subst. destruct Ia as [->|Ia], Ib as [->|Ib]; auto.
  - exfalso. apply H1. rewrite E. now apply in_map.
  - exfalso. apply H1. rewrite <- E. now apply in_map.
Qed.

Lemma find_in d n e : NoDup (map fst d) -> In (n, e) d -> find d n = Some e.
Proof.
  induction d as [|(k, x) d IH]; cbn; intros N I; [contradiction|].
  inversion N; subst. destruct I as [E|I].
  - injection E as -> ->. now rewrite str_eqb_refl.
  - destruct (str_eqb k n) eqn:E; [|auto]. apply str_eqb_eq in E. subst.
    exfalso. apply H1. now apply (in_map fst) in I.
Qed.
Lemma find_none d n : ~ In n (map fst d) -> find d n = None.
Proof.
  induction d as [|(k, x) d IH]; cbn; intros N; [reflexivity|].
  destruct (str_eqb k n) eqn:E; [apply str_eqb_eq in E; subst; exfalso; auto|auto].
Qed.
Lemma find_some_in d n e : find d n = Some e -> In (n, e) d.
Proof.
  induction d as [|(k, x) d IH]; cbn; intros H; [discriminate|].
  destruct (str_eqb k n) eqn:E; [apply str_eqb_eq in E; subst; injection H as ->; auto|auto].
Qed.

Lemma transformed_iff a : transformed a <-> has_transform a = true.
Proof.
  unfold transformed, has_transform. destruct (a_host a) as [h|].
  - split.
    + intros (h' & E & H). injection E as <-.
      destruct (h_unit h), (h_kind h), (h_flip h); cbn; auto.
      destruct H as [H|[H|H]]; [now contradiction H|discriminate|discriminate].
    + intros H. exists h. split; [reflexivity|].
      destruct (h_unit h), (h_kind h), (h_flip h); cbn in H; auto; try (left; discriminate); discriminate.
  - split; [intros (h & E & _); discriminate|discriminate].
Qed.
Lemma transformed_host a : has_transform a = true -> exists h, a_host a = Some h.
Proof. unfold has_transform. destruct (a_host a) as [h|]; [eauto|discriminate]. Qed.

Lemma local_inj a b : local_of a = local_of b -> a_lname a = a_lname b.
Proof. unfold local_of. apply app_inv_tail. Qed.
Lemma ptr_inj a b : ptr_of a = ptr_of b -> a_lname a = a_lname b.
Proof. unfold ptr_of. apply app_inv_tail. Qed.
Lemma local_ptr a b : local_of a <> ptr_of b.
Proof.
  unfold local_of, ptr_of. intros E. apply (f_equal (@rev ascii)) in E.
  rewrite !rev_app_distr in E. cbn in E. discriminate.
Qed.

(* ---- executions of blocks of statements ---- *)
Section E.
Variable truth : str -> bool.
Variable iv : str -> Z.
Variable sch : scheme.
Notation ex := (exec truth iv sch).

Lemma exec_app l1 l2 st :
  ex (l1 ++ l2) st = match ex l1 st with Some st' => ex l2 st' | None => None end.
Proof. revert st; induction l1 as [|s l1 IH]; intros st; cbn; [reflexivity|]. destruct (exec1 truth iv sch s st); auto. Qed.

Lemma exec_chain l1 l2 st st1 r : ex l1 st = Some st1 -> ex l2 st1 = r -> ex (l1 ++ l2) st = r.
Proof. intros E1 E2. rewrite exec_app, E1. exact E2. Qed.

Lemma exec_fail l1 l2 st : ex l1 st = None -> ex (l1 ++ l2) st = None.
Proof. intros E. rewrite exec_app, E. reflexivity. Qed.

(* conversions *)
Record cv := mkCv { c_l : str; c_ls : section; c_r : str; c_rs : section; c_t : option str }.
Definition cv_stmt (c : cv) : stmt := SConv (c_l c) (c_ls c) (c_r c) (c_rs c) (c_t c).

Lemma conv_run (l : list cv) : forall m tr,
  NoDup (map c_l l) -> (forall c d, In c l -> In d l -> c_l c <> c_r d) ->
  (forall c, In c l -> exists a, m (c_l c) = Arr a) -> (forall c, In c l -> exists a, m (c_r c) = Arr a) ->
  exists m', ex (map cv_stmt l) (m, tr) = Some (m', tr) /\
    (forall c, In c l -> m' (c_l c) = Arr (section_assign iv (c_ls c) (c_rs c) (c_t c) (contents m (c_l c)) (contents m (c_r c)))) /\
    (forall n, ~ In n (map c_l l) -> m' n = m n).
Proof.
  induction l as [|c l IH]; intros m tr N D Hl Hr.
  - exists m. cbn. split; [reflexivity|split; [contradiction|reflexivity]].
  - inversion N as [|? ? Nin N']; subst.
    destruct (Hl c (or_introl eq_refl)) as (al & El). destruct (Hr c (or_introl eq_refl)) as (ar & Er).
    set (m1 := mset m (c_l c) (Arr (section_assign iv (c_ls c) (c_rs c) (c_t c) al ar))).
    destruct (IH m1 tr N') as (m' & E & Ha & Ho).
    + intros x y Hx Hy. apply D; right; assumption.
    + intros x Hx. unfold m1. rewrite mset_other; [apply Hl; now right|].
      intros E. apply Nin. rewrite <- E. now apply in_map.
    + intros x Hx. unfold m1. rewrite mset_other; [apply Hr; now right|].
      apply not_eq_sym, D; [now left|now right].
    + exists m'. cbn. rewrite El, Er. split; [exact E|]. split.
      * intros x [<-|Hx].
        -- rewrite Ho by exact Nin. unfold m1. rewrite mset_same. unfold contents. now rewrite El, Er.
        -- rewrite (Ha x Hx). unfold contents, m1. rewrite !mset_other; [reflexivity| |].
           ++ apply not_eq_sym, D; [now left|now right].
           ++ intros Ex. apply Nin. rewrite <- Ex. now apply in_map.
      * intros n Hn. rewrite Ho by (intros H; apply Hn; now right).
        unfold m1. apply mset_other. intros ->. apply Hn. now left.
Qed.

(* associations *)
Record aso := mkAs { s_c : str; s_p : str; s_l : str }.
Definition as_stmt (x : aso) : stmt := SAssoc (s_c x) (s_p x) (s_l x).
Lemma assoc_run (l : list aso) : forall m tr,
  NoDup (map s_p l) -> (forall c d, In c l -> In d l -> s_p c <> s_l d) ->
  (forall x, In x l -> m (s_p x) = PNull) ->
  (forall x, In x l -> truth (s_c x) = true -> exists a, m (s_l x) = Arr a) ->
  exists m', ex (map as_stmt l) (m, tr) = Some (m', tr) /\
    (forall x, In x l -> m' (s_p x) = if truth (s_c x) then PTo (s_l x) else PNull) /\
    (forall n, ~ In n (map s_p l) -> m' n = m n).
Proof.
  induction l as [|c l IH]; intros m tr N D Hp Hl.
  - exists m. cbn. split; [reflexivity|split; [contradiction|reflexivity]].
  - inversion N as [|? ? Nin N']; subst.
    set (m1 := if truth (s_c c) then mset m (s_p c) (PTo (s_l c)) else m).
    assert (O1 : forall n, n <> s_p c -> m1 n = m n).
    { intros n Hn. unfold m1. destruct (truth (s_c c)); [now apply mset_other|reflexivity]. }
    destruct (IH m1 tr N') as (m' & E & Ha & Ho).
    + intros x y Hx Hy. apply D; now right.
    + intros x Hx. rewrite O1; [apply Hp; now right|]. intros E. apply Nin. rewrite <- E. now apply in_map.
    + intros x Hx T. rewrite O1; [apply Hl; [now right|exact T]|]. apply not_eq_sym, D; [now left|now right].
    + exists m'. cbn. rewrite (Hp c (or_introl eq_refl)). split.
      * unfold m1 in E. destruct (truth (s_c c)) eqn:T; [|exact E].
        destruct (Hl c (or_introl eq_refl) T) as (a & ->). exact E.
      * split.
        -- intros x [<-|Hx]; [|now apply Ha]. rewrite Ho by exact Nin. unfold m1.
           destruct (truth (s_c c)); [apply mset_same|apply Hp; now left].
        -- intros n Hn. rewrite Ho by (intros H; apply Hn; now right). apply O1. intros ->. apply Hn. now left.
Qed.

(* copies from a pointer to its own target *)
Definition cp_stmt (x : aso) : stmt := SCopy (s_c x) (s_l x) (s_p x).
Lemma copy_run (l : list aso) : forall m tr,
  (forall x, In x l -> truth (s_c x) = true -> m (s_p x) = PTo (s_l x) /\ exists a, m (s_l x) = Arr a) ->
  exists m', ex (map cp_stmt l) (m, tr) = Some (m', tr) /\ (forall n, m' n = m n).
Proof.
  induction l as [|c l IH]; intros m tr H.
  - exists m. cbn. auto.
  - cbn. destruct (truth (s_c c)) eqn:T.
    + destruct (H c (or_introl eq_refl) T) as (-> & a & Ea). rewrite Ea.
      assert (O1 : forall n, mset m (s_l c) (Arr a) n = m n).
      { intros n. unfold mset. destruct (str_eqb n (s_l c)) eqn:E; [apply str_eqb_eq in E; now subst|reflexivity]. }
      destruct (IH (mset m (s_l c) (Arr a)) tr) as (m' & E & Hm).
      * intros x Hx Tx. rewrite !O1. apply H; [now right|exact Tx].
      * exists m'. split; [exact E|]. intros n. now rewrite Hm, O1.
    + destruct (IH m tr) as (m' & E & Hm); [intros x Hx; apply H; now right|]. exists m'. auto.
Qed.

(* the call *)
Lemma resolve_ok {A} (m : store) (f : A -> str * intent * str) (tg : A -> option str) (l : list A) :
  (forall a, In a l -> target m (snd (f a)) = Some (tg a)) ->
  resolve m (map f l) = Some (map (fun a => (fst (f a), tg a)) l).
Proof.
  induction l as [|a l IH]; intros H; [reflexivity|]. cbn. destruct (f a) as ((d, it), n) eqn:E. cbn.
  specialize (H a (or_introl eq_refl)) as H1. rewrite E in H1. cbn in H1. rewrite H1.
  rewrite IH by (intros; apply H; now right). reflexivity.
Qed.

Lemma give_other (r : str -> arr) (ts : list (str * intent * option str)) : forall m n,
  (forall d it, In (d, it, Some n) ts -> it = In_) ->
  fold_left (give_back r) ts m n = m n.
Proof.
  induction ts as [|((d, it), t) ts IH]; intros m n H; [reflexivity|]. cbn [fold_left].
  rewrite IH by (intros; eapply H; right; eassumption). cbn. destruct t as [t|]; [|reflexivity].
  destruct (intent_eqb it In_) eqn:E; [reflexivity|]. apply mset_other. intros ->.
  rewrite (H d it (or_introl eq_refl)) in E. discriminate.
Qed.
Lemma give_same (r : str -> arr) (ts : list (str * intent * option str)) : forall m d it n,
  In (d, it, Some n) ts -> it <> In_ -> (forall d' it', In (d', it', Some n) ts -> d' = d /\ it' = it) ->
  fold_left (give_back r) ts m n = Arr (r d).
Proof.
  induction ts as [|((d0, it0), t0) ts IH]; intros m d it n H Hit U; [contradiction|]. cbn [fold_left].
  destruct (existsb (fun x => match x with (_, Some t) => str_eqb t n | _ => false end) ts) eqn:Ex.
  - apply existsb_exists in Ex. destruct Ex as (((d', it'), [t|]) & I & Et); [|discriminate].
    apply str_eqb_eq in Et. subst t. destruct (U d' it' (or_intror I)) as (-> & ->).
    apply (IH _ _ _ _ I Hit). intros d' it' H'. apply (U d' it'). now right.
  - destruct H as [E|H].
    2: { exfalso. enough (X : existsb (fun x : str * intent * option str => match x with (_, Some t) => str_eqb t n | _ => false end) ts = true) by congruence.
         apply existsb_exists. exists (d, it, Some n). split; [exact H|apply str_eqb_refl]. }
    injection E as -> -> ->.
    rewrite give_other.
    + cbn. destruct it; try contradiction; cbn; apply mset_same.
    + intros d' it' H'. exfalso.
      enough (X : existsb (fun x : str * intent * option str => match x with (_, Some t) => str_eqb t n | _ => false end) ts = true) by congruence.
      apply existsb_exists. exists (d', it', Some n). split; [exact H'|apply str_eqb_refl].
Qed.
End E.
