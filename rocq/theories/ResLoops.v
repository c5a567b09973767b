(* ResLoops.v: phases of loop variables, and the loop calculations of a group. *)
From Coq Require Import ZArith.
From Verif Require Import PyStr PyNum Base CompatModel ReqModel ReqProofs DictModel DictSpec DictProofs ResModel ResSpec ResProofs.
Open Scope nat_scope.
Open Scope list_scope.
Definition lX : str := L "horizontal_loop_extent".
Definition lB : str := L "horizontal_loop_begin".
Definition lE : str := L "horizontal_loop_end".
Definition three (s : str) : Prop := s = lX \/ s = lB \/ s = lE.
Definition reads_only (dn : list (nat * arg)) : Prop := forall j a, In (j, a) dn -> three (a_std a) -> x_intent (a_var a) <> Some Out_ /\ a_default a = false.
Lemma three_loop s : three s -> mem s loop_names = true.
Proof. intros [->|[->| ->]]; reflexivity. Qed.
Lemma three_dec s : three s \/ ~ three s.
Proof.
  unfold three. destruct (str_eqb s lX) eqn:A; [left; left; now apply str_eqb_eq|]. destruct (str_eqb s lB) eqn:B; [left; right; left; now apply str_eqb_eq|].
  destruct (str_eqb s lE) eqn:C; [left; right; right; now apply str_eqb_eq|]. right. apply str_eqb_neq in A, B, C. intuition.
Qed.
Definition required (s n : str) : Prop := s = lX /\ (n = lB \/ n = lE) \/ s = lE /\ n = lX.
Lemma required_in s names p n : get s loop_substs = Some (names, p) -> required s n -> In n names.
Proof.
  intros H [[-> R]|[-> ->]]; vm_compute in H; injection H as <- <-; [destruct R as [->| ->]|]; cbn; auto.
Qed.
Lemma required_three s n : required s n -> three n /\ n <> const_one /\ n <> s.
Proof. intros [[-> [->| ->]]|[-> ->]]; (split; [unfold three; auto|split; intros H; vm_compute in H; discriminate]). Qed.

Section Loops.
Context (compat : var -> var -> bool) (host : list hvar).
Notation hfind := (host_find host).
Definition pl (l : list gst) (j : nat) := match nth_error l j with Some g => g_loops g | None => [] end.
Definition gl (x : st) (j : nat) := if j =? kk x then g_loops (s_cur x) else pl (s_past x) j.
Definition ordered (l : list str) : Prop := forall l1 s l2, l = l1 ++ s :: l2 -> hfind s = None /\ ~ In s l1 /\ forall n, required s n -> hfind n <> None \/ In n l1.
Definition Ploop (dn : list (nat * arg)) (x : st) : Prop := reads_only dn ->
  (forall j, ordered (gl x j)) /\
  (forall j s, In s (gl x j) -> mem s loop_names = true -> get s (gd x j) <> None) /\
  (forall j s, three s -> get s (gd x j) <> None -> In s (gl x j)).
Lemma ordered_nil : ordered [].
Proof. intros l1 s l2 E. destruct l1; discriminate. Qed.
Lemma ordered_snoc l s : ordered l -> hfind s = None -> ~ In s l -> (forall n, required s n -> hfind n <> None \/ In n l) -> ordered (l ++ [s]).
Proof.
  intros O H N R l1 t l2 E. destruct l2 as [|u l2] using rev_ind.
  - apply app_inj_tail in E as [-> ->]. auto.
  - clear IHl2. rewrite app_comm_cons, app_assoc in E. apply app_inj_tail in E as [E _]. now apply (O l1 t l2).
Qed.
Lemma Ploop_arg dn x a x' : inv host dn x -> Ploop dn x -> astep compat host x a x' -> Ploop (dn ++ [(kk x, a)]) x'.
Proof.
  intros I P A RO. assert (RO' : reads_only dn) by (intros j b H; apply (RO j b); apply in_app_iff; auto).
  destruct (P RO') as (P1 & P2 & P3).
  destruct A as [A|i g v d u AB HF GG ML NE GV AV|h d u gv gv' AB HF OP LR AV GD AI|d o names prefix n dd lo u AB HF NG R LS CE DN RQ AV|d u AB HF NG OD AV]; auto.
  - assert (IL : i < length (s_past x)) by (apply nth_error_Some; congruence). pose proof (i_past _ _ _ I _ _ NE) as [KG _].
    set (x' := mkSt _ _ _ _ _).
    assert (EL : forall j, gl x' j = gl x j).
    { intros j. unfold gl, kk, x'. cbn [s_past s_cur]. rewrite upd_length. destruct (j =? length (s_past x)); auto. unfold pl. rewrite nth_upd by auto. destruct (Nat.eqb_spec j i) as [->|]; auto. now rewrite NE. }
    assert (ED : forall j s, mem s loop_names = true -> get s (gd x' j) = get s (gd x j)).
    { intros j s M. unfold gd, kk, x'. cbn [s_past s_cur]. rewrite upd_length. destruct (j =? length (s_past x)); auto. unfold pd. rewrite nth_upd by auto. destruct (Nat.eqb_spec j i) as [->|]; auto.
      rewrite NE. cbn [g_dict remove_variable d_vars]. rewrite get_del by apply KG. destruct (str_eqb s (a_std a)) eqn:Q; auto. apply str_eqb_eq in Q. subst s. congruence. }
    split; [intros j; rewrite EL; auto|]. split.
    + intros j s H M. rewrite EL in H. rewrite ED by auto. auto.
    + intros j s T H. rewrite EL. rewrite ED in H by (now apply three_loop). auto.
  - destruct AB as (C & GDN & GS). apply add_ok in AV as (KD & DO & DNEW); [|auto|apply (i_dk _ _ _ I)]. cbn [x_std] in *. rewrite GDN in DNEW. destruct DNEW as (w & DS & _).
    set (x' := set_cur x _).
    assert (ED : forall j t, get t (gd x' j) = if (j =? kk x) && str_eqb t (a_std a) then Some w else get t (gd x j)).
    { intros j t. unfold gd. change (kk x') with (kk x). destruct (Nat.eqb_spec j (kk x)) as [->|N]; cbn [andb x' set_cur s_cur with_dict with_call g_dict d_vars]; [|reflexivity].
      destruct (str_eqb t (a_std a)) eqn:Q; [apply str_eqb_eq in Q; now subst t|]. apply str_eqb_neq in Q. now apply DO. }
    assert (EL : forall j, gl x' j = if j =? kk x then (if mem (a_std a) (g_loops (s_cur x)) then g_loops (s_cur x) else g_loops (s_cur x) ++ [a_std a]) else gl x j).
    { intros j. unfold gl. change (kk x') with (kk x). destruct (j =? kk x); reflexivity. }
    assert (CUR : gl x (kk x) = g_loops (s_cur x)) by (unfold gl; now rewrite Nat.eqb_refl).
    split; [|split].
    + intros j. rewrite EL. destruct (Nat.eqb_spec j (kk x)) as [->|]; [|auto]. pose proof (P1 (kk x)) as O. rewrite CUR in O.
      destruct (mem (a_std a) (g_loops (s_cur x))) eqn:M; auto. apply ordered_snoc; auto; [apply mem_not; auto|].
      intros m RM. destruct (RQ m (required_in _ _ _ _ LS RM)) as [E|[E|E]]; auto; [destruct (required_three _ _ RM) as (_ & K & _); contradiction|].
      right. rewrite <- CUR. apply P3; [apply (required_three _ _ RM)|]. unfold gd. now rewrite Nat.eqb_refl.
    + intros j s H M. rewrite ED. rewrite EL in H. destruct (Nat.eqb_spec j (kk x)) as [->|]; cbn [andb]; [|auto].
      destruct (str_eqb s (a_std a)) eqn:Q; [discriminate|]. apply P2; auto. rewrite CUR. apply str_eqb_neq in Q. destruct (mem (a_std a) (g_loops (s_cur x))); auto. apply in_app_iff in H as [H|[H|[]]]; [auto|congruence].
    + intros j s T H. rewrite EL. rewrite ED in H. destruct (Nat.eqb_spec j (kk x)) as [->|]; cbn [andb] in H; [|auto].
      destruct (str_eqb s (a_std a)) eqn:Q.
      * apply str_eqb_eq in Q. subst s. destruct (mem (a_std a) (g_loops (s_cur x))) eqn:M; [now apply mem_in|]. apply in_app_iff. right. now left.
      * apply P3 in H; auto. rewrite CUR in H. destruct (mem (a_std a) (g_loops (s_cur x))); auto. apply in_app_iff. auto.
  - destruct AB as (C & GDN & GS). apply add_ok in AV as (KD & DO & DNEW); [|auto|apply (i_dk _ _ _ I)]. cbn [x_std] in *. rewrite GDN in DNEW. destruct DNEW as (w & DS & _).
    assert (NT : ~ three (a_std a)). { intros T. destruct (RO (kk x) a) as [R1 R2]; auto; [apply in_app_iff; right; now left|]. destruct OD; congruence. }
    set (x' := set_cur x _).
    assert (ED : forall j t, get t (gd x' j) = if (j =? kk x) && str_eqb t (a_std a) then Some w else get t (gd x j)).
    { intros j t. unfold gd. change (kk x') with (kk x). destruct (Nat.eqb_spec j (kk x)) as [->|N]; cbn [andb x' set_cur s_cur with_dict with_call g_dict d_vars]; [|reflexivity].
      destruct (str_eqb t (a_std a)) eqn:Q; [apply str_eqb_eq in Q; now subst t|]. apply str_eqb_neq in Q. now apply DO. }
    split; [exact P1|]. split.
    + intros j s H M. rewrite ED. destruct ((j =? kk x) && str_eqb s (a_std a)); [discriminate|]. now apply P2.
    + intros j s T H. change (gl x' j) with (gl x j). rewrite ED in H. destruct (str_eqb s (a_std a)) eqn:Q; [apply str_eqb_eq in Q; subst s; contradiction|]. rewrite andb_false_r in H. now apply P3.
Qed.
Lemma Ploop_scheme dn x scl : Ploop dn x -> Ploop dn (end_scheme x scl).
Proof. intros P R. exact (P R). Qed.
Lemma gl_end x run j : gl (end_group x run) j = gl x j.
Proof.
  unfold gl. rewrite kk_end. destruct (Nat.eqb_spec j (S (kk x))) as [->|N].
  - destruct (Nat.eqb_spec (S (kk x)) (kk x)); [lia|]. unfold pl. rewrite (proj2 (nth_error_None _ _)); [reflexivity|unfold kk; lia].
  - unfold pl, end_group. cbn [s_past]. destruct (Nat.eqb_spec j (kk x)) as [->|N2].
    + rewrite nth_error_app2 by (unfold kk; lia). unfold kk. now rewrite Nat.sub_diag.
    + destruct (Nat.lt_ge_cases j (length (s_past x))).
      * now rewrite nth_error_app1.
      * rewrite !(proj2 (nth_error_None _ _)); auto. rewrite app_length. cbn. unfold kk in *. lia.
Qed.
Lemma Ploop_group dn x run : inv host dn x -> Ploop dn x -> Ploop dn (end_group x run).
Proof.
  intros I P R. destruct (P R) as (P1 & P2 & P3). split; [|split].
  - intros j. rewrite gl_end. auto.
  - intros j s. rewrite gl_end, gd_end. auto.
  - intros j s. rewrite gl_end, gd_end. auto.
Qed.
Lemma Ploop_start run : Ploop [] (mkSt [] (new_group run) d_empty [] []).
Proof.
  intros _. assert (G : forall j, gl (mkSt [] (new_group run) d_empty [] []) j = []) by (intros [|[|j]]; reflexivity).
  split; [intros j; rewrite G; apply ordered_nil|]. split; [intros j s; rewrite G; intros []|].
  intros j s _ H. exfalso. apply H. now destruct j as [|[|j]].
Qed.

(* the values after the calculations *)
Lemma action_other e s t : t <> s -> loop_action e s t = e t.
Proof.
  intros N. unfold loop_action, setv. apply str_eqb_neq in N.
  destruct (str_eqb s (L "horizontal_loop_extent")); [now rewrite N|]. destruct (str_eqb s (L "horizontal_loop_begin")); [now rewrite N|].
  destruct (str_eqb s (L "horizontal_loop_end")); [now rewrite N|reflexivity].
Qed.
Lemma action_not_three e s : ~ three s -> loop_action e s = e.
Proof.
  unfold three, loop_action. intros N.
  destruct (str_eqb s (L "horizontal_loop_extent")) eqn:A; [apply str_eqb_eq in A; subst; exfalso; apply N; now left|].
  destruct (str_eqb s (L "horizontal_loop_begin")) eqn:B; [apply str_eqb_eq in B; subst; exfalso; apply N; right; now left|].
  destruct (str_eqb s (L "horizontal_loop_end")) eqn:C; [apply str_eqb_eq in C; subst; exfalso; apply N; right; now right|]. reflexivity.
Qed.
Lemma run_other l : forall e t, ~ In t l -> run_loops e l t = e t.
Proof.
  unfold run_loops. induction l as [|s l IH]; intros e t N; cbn [fold_left]; auto. rewrite IH by (intros H; apply N; now right).
  apply action_other. intros ->. apply N. now left.
Qed.
Definition equation (e : str -> Z) (s : str) : Prop :=
  (s = lX -> e lX = e lE - e lB + 1)%Z /\ (s = lB -> e lB = 1%Z) /\ (s = lE -> e lE = e lX).
Lemma run_equations l e : ordered l -> forall s, In s l -> equation (run_loops e l) s.
Proof.
  induction l as [|t l IH] using rev_ind; intros O s I; [destruct I|].
  assert (O' : ordered l). { intros l1 u l2 E. apply (O l1 u (l2 ++ [t])). now rewrite E, <- app_assoc. }
  destruct (O l t [] eq_refl) as (HT & NT & RT). unfold run_loops. rewrite fold_left_app. cbn [fold_left]. fold (run_loops e l). set (e1 := run_loops e l) in *.
  apply in_app_iff in I as [I|[<-|[]]].
  - assert (NR : forall n, required s n -> n <> t).
    { intros n RQ EN. subst n. rename RQ into R0. destruct (in_split s l I) as (l1 & l2 & EL). destruct (O' l1 s l2 EL) as (_ & _ & K). destruct (K t R0) as [R|R]; [congruence|]. apply NT. rewrite EL. apply in_app_iff. auto. }
    assert (NS : s <> t) by (intros ->; contradiction). specialize (IH O' s I). destruct IH as (Q1 & Q2 & Q3).
    split; [|split]; intros ->.
    + rewrite !action_other; auto; apply NR; left; auto.
    + rewrite action_other; auto.
    + rewrite !action_other; auto. apply NR. right; auto.
  - split; [|split]; intros ->; unfold loop_action, setv.
    + reflexivity.
    + reflexivity.
    + reflexivity.
Qed.
End Loops.
