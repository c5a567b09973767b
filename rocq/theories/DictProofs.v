From Coq Require Import Decimal DecimalFacts DecimalNat.
From Verif Require Import PyStr PyNum CompatModel ReqModel ReqProofs DictModel DictSpec.
Open Scope nat_scope.
Open Scope list_scope.

(* ---- number of digits ---- *)
Lemma uint_str_length u : length (uint_str u) = nb_digits u.
Proof. induction u; cbn; auto. Qed.
Lemma of_uint_acc_spec u : forall acc, Nat.of_uint_acc u acc = Nat.of_uint_acc u 0 + acc * 10 ^ nb_digits u.
Proof.
  assert (T : forall a, Nat.tail_mul 10 a = 10 * a) by (intros; now rewrite Nat.tail_mul_spec).
  induction u as [|u IH|u IH|u IH|u IH|u IH|u IH|u IH|u IH|u IH|u IH]; intros acc;
    cbn [Nat.of_uint_acc nb_digits Nat.pow]; [lia|..]; rewrite !T, IH; symmetry; rewrite IH; ring_simplify; lia.
Qed.
Lemma str_of_nat_length n k : 1 <= k -> n < 10 ^ k -> length (str_of_nat n) <= k.
Proof.
  intros K H. unfold str_of_nat. rewrite uint_str_length.
  destruct n as [|n]; [cbn; lia|].
  assert (N : unorm (Nat.to_uint (S n)) = Nat.to_uint (S n)) by (rewrite <- Unsigned.to_of, Unsigned.of_to; reflexivity).
  pose proof (Unsigned.of_to (S n)) as E. rewrite <- E in H. clear E.
  assert (NZ : forall u, unorm u = u -> u <> D0 Nil -> nb_digits u <= k \/ 10 ^ k <= Nat.of_uint u).
  { intros u U Z. destruct (Nat.le_gt_cases (nb_digits u) k) as [|G]; [now left|right].
    assert (B : forall u', k <= nb_digits u' -> forall d, 1 <= d -> 10 ^ k <= Nat.of_uint_acc u' d).
    { intros u' L d D. rewrite of_uint_acc_spec. pose proof (Nat.pow_le_mono_r 10 k (nb_digits u') ltac:(lia) L). nia. }
    unfold Nat.of_uint.
    destruct u as [|u|u|u|u|u|u|u|u|u|u]; cbn [nb_digits Nat.of_uint_acc] in *; [lia|..];
      try (apply B; [lia|cbn; lia]).
    exfalso. unfold unorm in U. cbn in U. destruct (nzhead u) eqn:Q; try discriminate; [congruence|].
    exact (nzhead_nonzero u u0 Q). }
  destruct (NZ _ N) as [|G]; [|assumption|lia].
  intros Q. pose proof (Unsigned.of_to (S n)) as E. rewrite Q in E. discriminate.
Qed.

(* ---- association lists ---- *)
Lemma get_in {A} k (l : list (str * A)) v : get k l = Some v -> In (k, v) l.
Proof.
  induction l as [|[k' v'] l IH]; cbn [get]; [discriminate|]. destruct (str_eqb k k') eqn:E.
  - apply str_eqb_eq in E. subst. intros [= ->]. now left.
  - intros H. right. auto.
Qed.
Lemma get_none {A} k (l : list (str * A)) : get k l = None <-> ~ In k (map fst l).
Proof.
  induction l as [|[k' v'] l IH]; cbn [get map fst In]; [tauto|]. destruct (str_eqb k k') eqn:E.
  - apply str_eqb_eq in E. subst. split; [discriminate|tauto].
  - apply str_eqb_neq in E. rewrite IH. intuition congruence.
Qed.
Lemma in_get {A} k (l : list (str * A)) v : NoDup (map fst l) -> In (k, v) l -> get k l = Some v.
Proof.
  induction l as [|[k' v'] l IH]; cbn [get map fst]; intros N H; [destruct H|]. inversion N; subst.
  destruct H as [[= -> ->]|H]; [now rewrite str_eqb_refl|].
  destruct (str_eqb k k') eqn:E; [|auto]. apply str_eqb_eq in E. subst. exfalso. apply H2. change k' with (fst (k', v)). now apply in_map.
Qed.
Lemma get_app {A} k (l : list (str * A)) k' v : get k (l ++ [(k', v)]) =
  match get k l with Some x => Some x | None => if str_eqb k k' then Some v else None end.
Proof. induction l as [|[a b] l IH]; cbn [get app]; auto. destruct (str_eqb k a); auto. Qed.
Lemma get_set {A} k k' (v : A) l : get k (set k' v l) = if str_eqb k k' then Some v else get k l.
Proof.
  induction l as [|[a b] l IH]; cbn [get set].
  - reflexivity.
  - destruct (str_eqb k' a) eqn:E; cbn [get].
    + apply str_eqb_eq in E. subst. destruct (str_eqb k a) eqn:E2; reflexivity.
    + rewrite IH. destruct (str_eqb k a) eqn:E2; auto. apply str_eqb_eq in E2. subst.
      destruct (str_eqb a k') eqn:E3; auto. apply str_eqb_eq in E3. subst. now rewrite str_eqb_refl in E.
Qed.
Lemma set_keys {A} k (v : A) l : In k (map fst l) -> map fst (set k v l) = map fst l.
Proof.
  induction l as [|[a b] l IH]; cbn; [tauto|]. intros H. destruct (str_eqb k a) eqn:E; cbn; auto.
  f_equal. apply IH. destruct H as [->|H]; auto. now rewrite str_eqb_refl in E.
Qed.
Lemma set_in {A} k (v : A) l x : In x (set k v l) -> x = (k, v) \/ In x l.
Proof.
  induction l as [|[a b] l IH]; cbn [set In].
  - intros [<-|[]]. auto.
  - destruct (str_eqb k a) eqn:E; cbn [In].
    + apply str_eqb_eq in E. subst. intros [<-|H]; auto.
    + intros [<-|H]; auto. apply IH in H as [H|H]; auto.
Qed.
Lemma del_in {A} k (l : list (str * A)) x : In x (del k l) -> In x l.
Proof.
  induction l as [|[a b] l IH]; cbn; auto. destruct (str_eqb k a); cbn; auto. intros [H|H]; auto.
Qed.
Lemma nodup_del {A} k (l : list (str * A)) : NoDup (map fst l) -> NoDup (map fst (del k l)).
Proof.
  induction l as [|[a b] l IH]; cbn; auto. intros N. inversion N; subst. destruct (str_eqb k a); cbn; auto.
  constructor; auto. intros K. apply H1. apply in_map_iff in K as ([a' b'] & <- & K). apply del_in in K.
  now apply in_map.
Qed.
Lemma get_del {A} k k' (l : list (str * A)) : NoDup (map fst l) ->
  get k (del k' l) = if str_eqb k k' then None else get k l.
Proof.
  induction l as [|[a b] l IH]; cbn; intros N; [now destruct (str_eqb k k')|]. inversion N; subst.
  destruct (str_eqb k' a) eqn:E; cbn [get].
  - apply str_eqb_eq in E. subst. destruct (str_eqb k a) eqn:E2; auto. apply str_eqb_eq in E2. subst. now apply get_none.
  - rewrite IH by assumption. destruct (str_eqb k a) eqn:E2; auto. apply str_eqb_eq in E2. subst.
    destruct (str_eqb a k') eqn:E3; auto. apply str_eqb_eq in E3. subst. now rewrite str_eqb_refl in E.
Qed.

(* ---- add_variable by cases ---- *)
Definition keys_ok (d : dict) : Prop :=
  NoDup (map fst (d_vars d)) /\ forall s v, In (s, v) (d_vars d) -> x_std v = s.
(* every registered local name leads to a variable *)
Definition no_stale (d : dict) : Prop := forall l s, In (l, s) (d_locals d) -> find_variable d s <> None.
(* every variable's local name is registered *)
Definition registered (d : dict) : Prop :=
  forall s v, In (s, v) (d_vars d) -> In (lower (x_local v)) (map fst (d_locals d)).

(* the dictionary after the intent check *)
Inductive checked (compat : var -> var -> bool) (d : dict) (v : var) : dict -> Prop :=
| Checked_same : checked compat d v d
| Checked_adj c c' : find_variable d (x_std v) = Some c -> adjust_intent c v = Ok c' -> x_std v <> const_one ->
    checked compat d v (mkD (set (x_std v) c' (d_vars d)) (d_locals d)).

Lemma adjust_same c v c' : adjust_intent c v = Ok c' -> same_but_intent c c' /\ (x_intent c' = x_intent c \/ x_intent c = None \/ x_intent c' = Some InOut_).
Proof.
  unfold adjust_intent, same_but_intent. intros H. match type of H with (if ?b then _ else _) = _ => destruct b; [discriminate|] end.
  destruct (x_intent c) eqn:E; [|injection H as <-; cbn; auto].
  match type of H with Ok (if ?b then _ else _) = _ => destruct b end; injection H as <-; cbn; auto.
Qed.

Lemma add_variable_cases compat d v e g a : let '(d', r) := add_variable compat d v e g a in
  match r with
  | Raise _ => checked compat d v d'
  | Ok _ => (get (x_std v) (d_vars d) = None \/ e = true) /\
      (forall c, find_variable d (x_std v) = Some c -> compat c v = true) /\
      exists d1 v', checked compat d v d1 /\ x_std v' = x_std v /\ x_intent v' = x_intent v /\ x_prot v' = x_prot v /\
      ((v' = v /\ (find_local_name d1 (x_local v) = Ok None \/ g = false /\ e = true)) \/
       (g = true /\ exists lv, find_local_name d1 (x_local v) = Ok (Some lv) /\
          exists n, new_name (fuel_of d1 (x_local v)) d1 max_len (x_local v) = Some n /\ v' = set_local v n)) /\
      d_vars d' = (match get (x_std v) (d_vars d1) with Some _ => d_vars d1 | None => d_vars d1 ++ [(x_std v, v')] end) /\
      d_locals d' = (match get (lower (x_local v)) (d_locals d1) with Some _ => d_locals d1
                                   | None => d_locals d1 ++ [(lower (x_local v), x_std v)] end)
  end.
Proof.
  unfold add_variable. cbv zeta.
  destruct ((match get (x_std v) (d_vars d) with Some _ => true | None => false end) && negb e) eqn:P; [constructor|].
  assert (PR : get (x_std v) (d_vars d) = None \/ e = true).
  { destruct (get (x_std v) (d_vars d)); [right; now destruct e|now left]. }
  assert (CK : checked compat d v (fst (check_existing compat d v a)) /\
    (forall u, snd (check_existing compat d v a) = Ok u -> forall c, find_variable d (x_std v) = Some c -> compat c v = true)).
  { unfold check_existing. destruct (find_variable d (x_std v)) as [c|] eqn:F; [|split; [constructor|congruence]].
    destruct (compat c v) eqn:C; [|split; [constructor|cbn; congruence]].
    split; [|intros u _ c0 [= <-]; exact C].
    destruct (intent_eqb (x_intent c) (x_intent v)); [constructor|]. destruct a; [|constructor].
    match goal with |- checked _ _ _ (fst (if ?b then _ else _)) => destruct b eqn:B end; [|constructor].
    destruct (adjust_intent c v) as [c'|] eqn:A; [|constructor]. cbn [fst]. eapply Checked_adj; eauto.
    intros K. unfold find_variable in F. rewrite K, str_eqb_refl in F. injection F as <-. cbn in B. discriminate. }
  destruct (check_existing compat d v a) as [d1 [u|er]]; cbn [fst snd] in CK; destruct CK as [CK CC]; [|exact CK].
  specialize (CC u eq_refl).
  destruct (resolve_local d1 v e g) as [v'|er] eqn:RL; [|exact CK].
  split; [exact PR|]. split; [exact CC|]. exists d1, v'. split; [exact CK|].
  unfold resolve_local in RL. apply bind_ok in RL as (lvar & FL & RL). apply bind_ok in RL as (w & RW & RL).
  apply bind_ok in RL as (ar & _ & RL). injection RL as ->. rewrite FL.
  destruct lvar as [lv|]; [|injection RW as <-; cbn [d_vars d_locals]; auto 10].
  destruct g.
  - destruct (new_name (fuel_of d1 (x_local v)) d1 max_len (x_local v)) as [n|]; [|discriminate]. injection RW as <-.
    cbn [d_vars d_locals]. split; [|split; [|split; [|split]]]; auto. right. split; auto. eauto 6.
  - destruct e; [|discriminate]. injection RW as <-. cbn [d_vars d_locals]. auto 10.
Qed.

Lemma checked_find compat d v d1 s : checked compat d v d1 ->
  (s <> x_std v -> find_variable d1 s = find_variable d s) /\
  (forall c, find_variable d s = Some c -> exists c', find_variable d1 s = Some c' /\ same_but_intent c c' /\
     (x_intent c' = x_intent c \/ x_intent c = None \/ x_intent c' = Some InOut_)) /\
  (find_variable d s = None -> find_variable d1 s = None).
Proof.
  intros H. destruct H as [|c c' F A N].
  - split; [|split]; auto. intros c H. exists c. unfold same_but_intent. auto.
  - destruct (adjust_same _ _ _ A) as [AS AI].
    unfold find_variable in *. cbn [d_vars] in *. rewrite get_set.
    destruct (str_eqb s const_one) eqn:E.
    + split; [|split]; auto. intros c0 H. exists c0. unfold same_but_intent. auto.
    + destruct (str_eqb s (x_std v)) eqn:E2.
      * apply str_eqb_eq in E2. subst s. rewrite E in F. split; [congruence|]. split; [|congruence].
        intros c0 H. rewrite F in H. injection H as <-. eauto.
      * split; [|split]; auto. intros c0 H. exists c0. unfold same_but_intent. auto.
Qed.
Lemma checked_keys compat d v d1 : checked compat d v d1 -> keys_ok d -> keys_ok d1 /\ map fst (d_vars d1) = map fst (d_vars d).
Proof.
  intros H [K1 K2]. destruct H as [|c c' F A N]; [split; [split|]; auto|]. destruct (adjust_same _ _ _ A) as [(AS & _) _].
  unfold find_variable in F. rewrite (proj2 (str_eqb_neq _ _) N) in F. apply get_in in F. pose proof (K2 _ _ F) as CS.
  assert (KS : map fst (set (x_std v) c' (d_vars d)) = map fst (d_vars d)).
  { apply set_keys. change (x_std v) with (fst (x_std v, c)). now apply in_map. }
  split; [|exact KS]. split; cbn [d_vars].
  - rewrite KS. exact K1.
  - intros s w H. apply set_in in H as [[= -> ->]|H]; [congruence|auto].
Qed.
Lemma checked_locals compat d v d1 : checked compat d v d1 -> d_locals d1 = d_locals d.
Proof. now intros []. Qed.

Lemma keys_step compat d o : keys_ok d -> keys_ok (step compat d o).
Proof.
  intros K. destruct o as [v e g a|s]; cbn [step].
  - pose proof (add_variable_cases compat d v e g a) as H. destruct (add_variable compat d v e g a) as [d' [u|er]]; cbn [fst].
    + destruct H as (_ & _ & d1 & v' & CK & V & _ & _ & _ & DV & _). destruct (checked_keys _ _ _ _ CK K) as [[K1 K2] _].
      unfold keys_ok. rewrite DV. destruct (get (x_std v) (d_vars d1)) eqn:G; [split; auto|]. split.
      * rewrite map_app. apply NoDup_snoc; auto. now apply get_none.
      * intros s w H. apply in_app_iff in H as [H|[[= <- <-]|[]]]; auto.
    + apply (checked_keys _ _ _ _ H K).
  - destruct K as [K1 K2]. split; cbn [remove_variable d_vars]; [now apply nodup_del|].
    intros t w H. apply del_in in H. auto.
Qed.
Lemma keys_run compat ops : keys_ok (run compat ops).
Proof.
  unfold run. rewrite <- fold_left_rev_right. induction (rev ops) as [|o l IH]; cbn; [|now apply keys_step].
  split; [constructor|intros s v []].
Qed.

(* ---- new names ---- *)
Definition cand (prefix : str) (i : nat) : str := if i =? 0 then prefix else prefix ++ str_of_nat i.
Lemma cand_inj prefix i j : cand prefix i = cand prefix j -> i = j.
Proof.
  unfold cand. intros H. destruct i as [|i], j as [|j]; cbn [Nat.eqb] in H; auto.
  - rewrite <- (app_nil_r prefix) in H at 1. apply app_inv_head in H. symmetry in H. now apply str_of_nat_nonempty in H.
  - rewrite <- (app_nil_r prefix) in H at 2. apply app_inv_head in H. now apply str_of_nat_nonempty in H.
  - apply app_inv_head in H. now apply str_of_nat_inj in H.
Qed.
Lemma removelast_length {A} (l : list A) : length (removelast l) = length l - 1.
Proof. induction l as [|x l IH]; auto. cbn [removelast]. destruct l; auto. cbn [length] in *. lia. Qed.
Lemma removelast_app_prefix {A} (l : list A) : exists r, l = removelast l ++ r.
Proof.
  destruct l as [|x l]; [now exists []|]. exists [last (x :: l) x]. apply app_removelast_last. discriminate.
Qed.

Lemma new_name_loop_sound taken ml : forall fuel p i n, new_name_loop fuel taken ml p i = Some n ->
  length n <= ml /\ ~ In n taken /\ exists p' r j, p = p' ++ r /\ n = cand p' j.
Proof.
  induction fuel as [|fuel IH]; intros p i n H; cbn [new_name_loop] in H; [discriminate|]. fold (cand p i) in H.
  destruct (ml <? length (cand p i)) eqn:E.
  - apply IH in H as (H1 & H2 & p' & r & j & H3 & H4). split; auto. split; auto.
    destruct (removelast_app_prefix p) as [r' R]. exists p', (r ++ r'), j. rewrite app_assoc, <- H3. split; auto.
  - apply Nat.ltb_ge in E. destruct (mem (cand p i) taken) eqn:M; [eauto|].
    injection H as <-. apply mem_not in M. split; auto. split; auto. exists p, [], i. rewrite app_nil_r. auto.
Qed.
(* without truncation the given prefix is kept *)
Lemma new_name_loop_prefix taken ml : forall fuel p i n, new_name_loop fuel taken ml p i = Some n ->
  (forall j, j < i + fuel -> length (cand p j) <= ml) -> exists j, i <= j /\ n = cand p j.
Proof.
  induction fuel as [|fuel IH]; intros p i n H L; cbn [new_name_loop] in H; [discriminate|]. fold (cand p i) in H.
  replace (ml <? length (cand p i)) with false in H by (symmetry; apply Nat.ltb_ge, L; lia).
  destruct (mem (cand p i) taken) eqn:M; [|injection H as <-; eauto].
  apply IH in H as (j & H1 & H2); [exists j; split; [lia|auto]|]. intros j K. apply L. lia.
Qed.

Lemma nodup_incl_length (seen taken : list str) : NoDup seen -> (forall x, In x seen -> In x taken) -> length seen <= length taken.
Proof. intros. apply NoDup_incl_length; auto. Qed.

(* the loop ends *)
Lemma new_name_loop_total taken ml : forall fuel p i seen,
  (forall j, j < i + fuel -> length (str_of_nat j) <= ml) ->
  NoDup seen -> (forall x, In x seen -> In x taken) -> (forall x, In x seen -> exists j, j < i /\ x = cand p j) ->
  length p * S (length taken) + (length taken - length seen) < fuel ->
  new_name_loop fuel taken ml p i <> None.
Proof.
  induction fuel as [|fuel IH]; intros p i seen D ND SUB OLD M; [lia|].
  cbn [new_name_loop]. fold (cand p i).
  destruct (ml <? length (cand p i)) eqn:E.
  - apply Nat.ltb_lt in E.
    assert (P : p <> []).
    { intros ->. unfold cand in E. destruct (i =? 0); [cbn in E; lia|]. cbn [app] in E. specialize (D i ltac:(lia)). lia. }
    apply (IH (removelast p) (S i) []); [intros; apply D; lia|constructor|intros x []|intros x []|].
    rewrite removelast_length. destruct p as [|c p]; [contradiction|]. cbn [length] in *.
    rewrite Nat.sub_0_r in *. replace (S (length p) - 1) with (length p) by lia.
    pose proof (nodup_incl_length seen taken ND SUB). nia.
  - destruct (mem (cand p i) taken) eqn:K; [|discriminate]. apply mem_in in K.
    assert (NI : ~ In (cand p i) seen).
    { intros H. apply OLD in H as (j & J1 & J2). apply cand_inj in J2. lia. }
    apply (IH p (S i) (cand p i :: seen)).
    + intros; apply D; lia.
    + now constructor.
    + intros x [<-|H]; auto.
    + intros x [<-|H]; [eauto|]. apply OLD in H as (j & J1 & J2). exists j. split; auto.
    + assert (length (cand p i :: seen) <= length taken).
      { apply nodup_incl_length; [now constructor|]. intros x [<-|H]; auto. }
      cbn [length] in *. lia.
Qed.

Lemma containing_length p l : length (containing p l) <= length l.
Proof. unfold containing. induction l as [|x l IH]; cbn; auto. destruct (contains p x); cbn; lia. Qed.

Lemma new_name_total d l : fuel_of d l < 10 ^ max_len -> exists n, new_name (fuel_of d l) d max_len l = Some n.
Proof.
  intros H. unfold new_name. destruct (new_name_loop (fuel_of d l) _ max_len l 0) as [n|] eqn:E; [eauto|exfalso].
  revert E. apply (new_name_loop_total _ _ _ l 0 []); [|constructor|intros x []|intros x []|].
  - intros j J. apply str_of_nat_length; [unfold max_len; lia|]. lia.
  - pose proof (containing_length l (map fst (d_locals d))) as C. rewrite map_length in C.
    unfold fuel_of. cbn [length]. nia.
Qed.

Lemma contains_prefix p s : contains p (p ++ s) = true.
Proof.
  assert (S : startswith p (p ++ s) = true) by (unfold startswith; now rewrite after_prefix_app).
  destruct (p ++ s) as [|c t] eqn:E; cbn [contains]; rewrite S; reflexivity.
Qed.
Lemma cand_fresh d p n : (exists j, n = cand p j) -> ~ In n (containing p (map fst (d_locals d))) -> ~ In n (map fst (d_locals d)).
Proof.
  intros (j & ->) H K. apply H. unfold containing. apply filter_In. split; auto.
  unfold cand. destruct (j =? 0); [rewrite <- (app_nil_r p) at 2|]; apply contains_prefix.
Qed.
Lemma lower_app a b : lower (a ++ b) = lower a ++ lower b.
Proof. apply map_app. Qed.
Lemma cand_lower p j : lower p = p -> lower (cand p j) = cand p j.
Proof. intros H. unfold cand. destruct (j =? 0); auto. now rewrite lower_app, H, str_of_nat_lower. Qed.

(* ---- histories of additions ---- *)
Lemma find_present d s : s <> const_one -> find_variable d s = get s (d_vars d).
Proof. intros H. unfold find_variable. now rewrite (proj2 (str_eqb_neq _ _) H). Qed.


Lemma add_other compat d v e g a s : s <> x_std v ->
  find_variable (fst (add_variable compat d v e g a)) s = find_variable d s.
Proof.
  intros N. pose proof (add_variable_cases compat d v e g a) as H. destruct (add_variable compat d v e g a) as [d' [u|er]]; cbn [fst].
  - destruct H as (_ & _ & d1 & v' & CK & _ & _ & _ & _ & DV & _).
    destruct (checked_find _ _ _ _ s CK) as [F _]. rewrite <- (F N).
    unfold find_variable. destruct (str_eqb s const_one); auto. rewrite DV.
    destruct (get (x_std v) (d_vars d1)); auto. rewrite get_app, (proj2 (str_eqb_neq _ _) N).
    now destruct (get s (d_vars d1)).
  - destruct (checked_find _ _ _ _ s H) as [F _]. now apply F.
Qed.
Lemma step_keeps compat d o s w : find_variable d s = Some w -> o <> Remove s -> keys_ok d ->
  exists w', find_variable (step compat d o) s = Some w' /\ same_but_intent w w' /\
    (x_intent w' = x_intent w \/ x_intent w = None \/ x_intent w' = Some InOut_).
Proof.
  intros F N K. destruct o as [v e g a|t]; cbn [step].
  - pose proof (add_variable_cases compat d v e g a) as H. destruct (add_variable compat d v e g a) as [d' [u|er]]; cbn [fst].
    + destruct H as (_ & _ & d1 & v' & CK & _ & _ & _ & _ & DV & _).
      destruct (checked_find _ _ _ _ s CK) as (_ & F1 & _). destruct (F1 w F) as (w' & F2 & F3). exists w'. split; auto.
      unfold find_variable in *. destruct (str_eqb s const_one); auto. rewrite DV.
      destruct (get (x_std v) (d_vars d1)); auto. now rewrite get_app, F2.
    + destruct (checked_find _ _ _ _ s H) as (_ & F1 & _). now apply F1.
  - exists w. split; [|unfold same_but_intent; auto]. unfold find_variable, remove_variable in *. cbn [d_vars].
    destruct (str_eqb s const_one); auto. rewrite get_del by apply K. destruct (str_eqb s t) eqn:E; auto.
    apply str_eqb_eq in E. subst. congruence.
Qed.

Lemma no_stale_add compat d v e g a : no_stale d -> keys_ok d -> no_stale (fst (add_variable compat d v e g a)).
Proof.
  intros NS K. assert (KEEP : forall s, find_variable d s <> None -> find_variable (fst (add_variable compat d v e g a)) s <> None).
  { intros s H. destruct (find_variable d s) as [w|] eqn:F; [|contradiction].
    destruct (step_keeps compat d (Add v e g a) s w F ltac:(discriminate) K) as (w' & F' & _). cbn [step] in F'. congruence. }
  pose proof (add_variable_cases compat d v e g a) as H. destruct (add_variable compat d v e g a) as [d' [u|er]]; cbn [fst] in *.
  - destruct H as (_ & _ & d1 & v' & CK & _ & _ & _ & _ & DV & DL). pose proof (checked_locals _ _ _ _ CK) as L1.
    assert (FV : find_variable d' (x_std v) <> None).
    { unfold find_variable. destruct (str_eqb (x_std v) const_one); [discriminate|]. rewrite DV.
      destruct (get (x_std v) (d_vars d1)) eqn:G; [congruence|]. rewrite get_app, G, str_eqb_refl. discriminate. }
    intros l s H. rewrite DL, L1 in H. destruct (get (lower (x_local v)) (d_locals d)); [apply KEEP; eapply NS; eauto|].
    apply in_app_iff in H as [H|[[= <- <-]|[]]]; [apply KEEP; eapply NS; eauto|exact FV].
  - intros l s H'. rewrite (checked_locals _ _ _ _ H) in H'. apply KEEP. eapply NS; eauto.
Qed.
Lemma run_snoc compat ops o : run compat (ops ++ [o]) = step compat (run compat ops) o.
Proof. unfold run. now rewrite fold_left_app. Qed.
Lemma no_stale_run compat ops : only_adds ops -> no_stale (run compat ops).
Proof.
  induction ops as [|o ops IH] using rev_ind; intros H.
  - intros l s [].
  - rewrite run_snoc. assert (O : only_adds ops) by (intros x Hx; apply H, in_app_iff; auto).
    specialize (H o ltac:(apply in_app_iff; right; now left)). destruct o as [v e g a|]; [|contradiction].
    cbn [step]. apply no_stale_add; [auto|apply keys_run].
Qed.
Lemma find_local_ok d l : no_stale d -> exists r, find_local_name d l = Ok r.
Proof.
  intros NS. unfold find_local_name. destruct (get (lower l) (d_locals d)) as [s|] eqn:G; [|eauto].
  apply get_in in G. apply NS in G. destruct (find_variable d s); [eauto|contradiction].
Qed.

Lemma failed_unchanged compat d v e g a d' er : no_stale d -> keys_ok d ->
  g = false \/ fuel_of d (x_local v) < 10 ^ max_len ->
  add_variable compat d v e g a = (d', Raise er) -> d' = d.
Proof.
  intros NS K G H. unfold add_variable in H. cbv zeta in H.
  destruct ((match get (x_std v) (d_vars d) with Some _ => true | None => false end) && negb e) eqn:P; [congruence|].
  destruct (check_existing compat d v a) as [d1 r1] eqn:CE.
  assert (X : d1 = d \/ (r1 = Ok tt /\ e = true /\ checked compat d v d1)).
  { unfold check_existing in CE. destruct (find_variable d (x_std v)) as [c|] eqn:F; [|left; congruence].
    destruct (compat c v); [|left; congruence]. destruct (intent_eqb (x_intent c) (x_intent v)); [left; congruence|].
    destruct a; [|left; congruence].
    match type of CE with (if ?b then _ else _) = _ => destruct b eqn:B; [|left; congruence] end.
    destruct (adjust_intent c v) as [c'|] eqn:A; [|left; congruence]. right. injection CE as <- <-.
    assert (N : x_std v <> const_one).
    { intros Q. unfold find_variable in F. rewrite Q, str_eqb_refl in F. injection F as <-. cbn in B. discriminate. }
    rewrite find_present in F by assumption. rewrite F in P. split; auto. split; [now destruct e|].
    eapply Checked_adj; eauto. now rewrite find_present. }
  destruct r1 as [[]|]; [|destruct X as [X|(X & _)]; congruence].
  destruct X as [->|(_ & -> & CK)].
  - destruct (resolve_local d v e g); [discriminate|congruence].
  - exfalso. assert (NS1 : no_stale d1).
    { intros l s Hl. rewrite (checked_locals _ _ _ _ CK) in Hl. apply NS in Hl.
      destruct (find_variable d s) as [w|] eqn:F; [|contradiction].
      destruct (checked_find _ _ _ _ s CK) as (_ & F1 & _). destruct (F1 w F) as (w' & F2 & _). congruence. }
    assert (FE : fuel_of d1 (x_local v) = fuel_of d (x_local v)) by (unfold fuel_of; now rewrite (checked_locals _ _ _ _ CK)).
    unfold resolve_local in H. destruct (find_local_ok d1 (x_local v) NS1) as [r R]. rewrite R in H. cbn [bind] in H.
    assert (A : exists q, (match array_of (x_local v) with Some a => find_local_name d1 a | None => Ok None end) = Ok q).
    { destruct (array_of (x_local v)); [now apply find_local_ok|eauto]. }
    destruct A as [q A]. rewrite A in H.
    destruct r; [|discriminate H]. destruct g; [|discriminate H].
    destruct G as [G|G]; [discriminate|]. rewrite FE in H.
    destruct (new_name_total d1 (x_local v)) as [n N]; [now rewrite FE|]. rewrite FE in N. rewrite N in H. discriminate.
Qed.

(* registered names *)
Lemma registered_step compat d v e a : registered d -> keys_ok d -> registered (fst (add_variable compat d v e false a)).
Proof.
  intros R K. pose proof (add_variable_cases compat d v e false a) as H.
  assert (CR : forall d1, checked compat d v d1 -> registered d1).
  { intros d1 CK s w I. rewrite (checked_locals _ _ _ _ CK). destruct CK as [|c c' F A N]; [eauto|].
    cbn [d_vars] in I. apply set_in in I as [[= -> ->]|I]; [|eauto].
    destruct (adjust_same _ _ _ A) as [(_ & AL & _) _]. rewrite AL.
    rewrite find_present in F by assumption. apply get_in in F. eauto. }
  destruct (add_variable compat d v e false a) as [d' [u|er]]; cbn [fst] in *; [|eauto].
  destruct H as (_ & _ & d1 & v' & CK & _ & _ & _ & RN & DV & DL). specialize (CR d1 CK).
  assert (INCL : forall x, In x (map fst (d_locals d1)) -> In x (map fst (d_locals d'))).
  { intros x I. rewrite DL. destruct (get (lower (x_local v)) (d_locals d1)); auto. rewrite map_app. apply in_app_iff. auto. }
  assert (NEW : In (lower (x_local v)) (map fst (d_locals d'))).
  { rewrite DL. destruct (get (lower (x_local v)) (d_locals d1)) eqn:G.
    - apply get_in in G. change (lower (x_local v)) with (fst (lower (x_local v), s)). now apply in_map.
    - rewrite map_app. apply in_app_iff. right. now left. }
  destruct RN as [(-> & _)|(RN & _)]; [|discriminate].
  intros s w I. rewrite DV in I. destruct (get (x_std v) (d_vars d1)); [apply INCL; eauto|].
  apply in_app_iff in I as [I|[[= <- <-]|[]]]; [apply INCL; eauto|exact NEW].
Qed.
Lemma registered_run compat ops : no_renames ops -> registered (run compat ops).
Proof.
  induction ops as [|o ops IH] using rev_ind; intros H.
  - intros s v [].
  - rewrite run_snoc. assert (O : no_renames ops) by (intros x Hx; apply H, in_app_iff; auto).
    specialize (H o ltac:(apply in_app_iff; right; now left)). destruct o as [v e g a|]; [|contradiction].
    subst g. cbn [step]. apply registered_step; [auto|apply keys_run].
Qed.
