(* MkProofs.v: lemmas about the build system files. *)
From Verif Require Import PyStr ReqModel ReqProofs MkModel MkSpec.
From Coq Require Import Lia Permutation.
Open Scope nat_scope.
Open Scope list_scope.

(* ---- the three files ---- *)
Lemma trio_current (f : fs) m c s :
  (f (Mk, false) = Some m -> f (Cm, false) = Some c /\ f (Src, false) = Some s) -> current (trio f m c s) m c s.
Proof.
  intros H. unfold trio, trio_ops, apply_ops.
  destruct (same_content (f (Mk, false)) m) eqn:E.
  - cbn. unfold same_content in E. destruct (f (Mk, false)) as [d|] eqn:F; [|discriminate].
    apply str_eqb_eq in E. subst d. destruct (H eq_refl) as [H1 H2].
    unfold current, upd; cbn. repeat split; auto. intros []; reflexivity.
  - unfold is_file. destruct (f (Mk, false)), (f (Cm, false)), (f (Src, false)); cbn; unfold current, upd; cbn; repeat split; auto; intros []; reflexivity.
Qed.
Lemma trio_keeps (f : fs) m c s : f (Mk, false) = Some m ->
  forall t, trio f m c s (t, false) = f (t, false).
Proof.
  intros H t. unfold trio, trio_ops, apply_ops, same_content. rewrite H, str_eqb_refl. cbn. unfold upd. destruct t; reflexivity.
Qed.
Section Kind.
Variables M C S : list str -> str.
Variable ok : str -> Prop.
Hypothesis inj : forall l l', Forall ok l -> Forall ok l' -> M (sorted l) = M (sorted l') -> sorted l = sorted l'.
Definition gen (f : fs) (l : list str) : fs := trio f (M (sorted l)) (C (sorted l)) (S (sorted l)).
Lemma gen_history f ls l : f (Mk, false) = None -> Forall (Forall ok) ls -> Forall ok l ->
  current (fold_left gen (ls ++ [l]) f) (M (sorted l)) (C (sorted l)) (S (sorted l)).
Proof.
  intros H Fs Fl. rewrite fold_left_app. cbn [fold_left].
  assert (K : fold_left gen ls f (Mk, false) = None \/
     exists l', Forall ok l' /\ current (fold_left gen ls f) (M (sorted l')) (C (sorted l')) (S (sorted l'))).
  { induction ls as [|l' ls IH] using rev_ind; [now left|].
    apply Forall_app in Fs as [Fs Fl']. inversion Fl' as [|? ? Fl'' _]; subst. specialize (IH Fs).
    right. exists l'. split; [assumption|]. rewrite fold_left_app. cbn [fold_left]. apply trio_current.
    intros E. destruct IH as [IH|(l0 & F0 & C1 & C2 & C3 & _)]; [congruence|].
    rewrite C1 in E. injection E as E. apply inj in E; auto. rewrite <- E. auto. }
  apply trio_current. intros E. destruct K as [K|(l0 & F0 & C1 & C2 & C3 & _)]; [congruence|].
  rewrite C1 in E. injection E as E. apply inj in E; auto. rewrite <- E. auto.
Qed.
End Kind.

(* ---- makefile items can be read back ---- *)
Lemma first_nl (a b r t : str) : ~ In nl a -> ~ In nl b -> a ++ nl :: r = b ++ nl :: t -> a = b /\ r = t.
Proof.
  revert b. induction a as [|x a IH]; intros [|y b] Na Nb E; cbn in E; [injection E as ->|injection E as <- E|injection E as -> E|injection E as <- E].
  - auto.
  - exfalso. apply Nb. now left.
  - exfalso. apply Na. now left.
  - destruct (IH b) as [-> ->]; auto; intros I; [apply Na|apply Nb]; now right.
Qed.
Definition stop (t : str) : Prop := t = [] \/ exists r, t = nl :: nl :: r.
Lemma mk_items_cons x l : mk_items (x :: l) = L " " ++ [bslash; nl; tab] ++ L "   " ++ x ++ mk_items l.
Proof. unfold mk_items. cbn [map List.concat]. unfold mk_item. now rewrite <- !app_assoc. Qed.
Lemma rest_shape l t : stop t -> mk_items l ++ t = [] \/ (exists r, mk_items l ++ t = nl :: nl :: r) \/ (exists r, mk_items l ++ t = L " " ++ bslash :: nl :: tab :: r).
Proof.
  intros [->|(r & ->)]; destruct l as [|x l].
  - now left.
  - right. right. rewrite mk_items_cons. eexists. cbn. reflexivity.
  - right. left. now exists r.
  - right. right. rewrite mk_items_cons. eexists. cbn. reflexivity.
Qed.
Lemma app_bs (a b : str) : a ++ L " " ++ [bslash] = b ++ L " " ++ [bslash] -> a = b.
Proof. apply app_inv_tail. Qed.
Lemma nl_app (a b : str) : ~ In nl a -> ~ In nl b -> ~ In nl (a ++ b).
Proof. intros A B I. apply in_app_or in I. tauto. Qed.
Lemma bs_nl : ~ In nl (L " " ++ [bslash]). Proof. cbn. intros [H|[H|[]]]; discriminate. Qed.
Lemma item_split x y r t : one_line x -> one_line y ->
  (r = [] \/ (exists u, r = nl :: nl :: u) \/ (exists u, r = L " " ++ bslash :: nl :: tab :: u)) ->
  (t = [] \/ (exists u, t = nl :: nl :: u) \/ (exists u, t = L " " ++ bslash :: nl :: tab :: u)) ->
  x ++ r = y ++ t -> x = y /\ r = t.
Proof.
  intros X Y HR HT E.
  assert (B : forall z u, z ++ L " " ++ bslash :: nl :: tab :: u = (z ++ L " " ++ [bslash]) ++ nl :: tab :: u) by (intros; now rewrite <- !app_assoc).
  assert (NX : ~ In nl (x ++ L " " ++ [bslash])) by (apply nl_app; [exact X|apply bs_nl]).
  assert (NY : ~ In nl (y ++ L " " ++ [bslash])) by (apply nl_app; [exact Y|apply bs_nl]).
  destruct HR as [->|[(u & ->)|(u & ->)]], HT as [->|[(v & ->)|(v & ->)]].
  - rewrite !app_nil_r in E. auto.
  - exfalso. apply X. rewrite app_nil_r in E. rewrite E. apply in_or_app. right. now left.
  - exfalso. apply X. rewrite app_nil_r in E. rewrite E. apply in_or_app. right. right. right. now left.
  - exfalso. apply Y. rewrite app_nil_r in E. rewrite <- E. apply in_or_app. right. now left.
  - apply first_nl in E as [-> E]; auto. split; auto. now rewrite E.
  - rewrite B in E. apply first_nl in E as [_ E]; auto. discriminate.
  - exfalso. apply Y. rewrite app_nil_r in E. rewrite <- E. apply in_or_app. right. right. right. now left.
  - rewrite B in E. apply first_nl in E as [_ E]; auto. discriminate.
  - rewrite !B in E. apply first_nl in E as [E1 E2]; auto. apply app_bs in E1. split; auto. injection E2 as ->. reflexivity.
Qed.
Lemma items_inj l : forall l' t t', Forall one_line l -> Forall one_line l' -> stop t -> stop t' ->
  mk_items l ++ t = mk_items l' ++ t' -> l = l' /\ t = t'.
Proof.
  induction l as [|x l IH]; intros [|y l'] t t' F F' S S' E.
  - split; auto.
  - rewrite mk_items_cons in E. cbn in E. destruct S as [->|(r & ->)]; discriminate.
  - rewrite mk_items_cons in E. cbn in E. destruct S' as [->|(r & ->)]; discriminate.
  - rewrite !mk_items_cons, <- !app_assoc in E. do 3 apply app_inv_head in E.
    assert (X : one_line x) by now inversion F. assert (Y : one_line y) by now inversion F'.
    apply item_split in E as [-> E]; auto using rest_shape.
    assert (Fl : Forall one_line l) by now inversion F. assert (Fl' : Forall one_line l') by now inversion F'. apply IH in E as [-> ->]; auto.
Qed.
Lemma forall_sorted (P : str -> Prop) l : Forall P l -> Forall P (sorted l).
Proof. rewrite !Forall_forall. intros H x I. apply H, in_sorted, I. Qed.
Lemma simple_inj what var l l' : Forall one_line l -> Forall one_line l' ->
  simple_makefile what var (sorted l) = simple_makefile what var (sorted l') -> sorted l = sorted l'.
Proof.
  intros F F' E. unfold simple_makefile in E. do 3 apply app_inv_head in E.
  rewrite <- (app_nil_r (mk_items (sorted l))), <- (app_nil_r (mk_items (sorted l'))) in E.
  apply items_inj in E as [E _]; auto using forall_sorted; now left.
Qed.

(* ---- sorting ---- *)
Lemma code_inj x y : code x = code y -> x = y.
Proof. unfold code. intros E. rewrite <- (Ascii.ascii_nat_embedding x), <- (Ascii.ascii_nat_embedding y). now rewrite E. Qed.
Lemma leb_total a : forall b, str_leb a b = true \/ str_leb b a = true.
Proof.
  induction a as [|x a IH]; intros [|y b]; cbn [str_leb]; auto.
  destruct (Ascii.eqb x y) eqn:E.
  - apply Ascii.eqb_eq in E. subst. rewrite Ascii.eqb_refl. apply IH.
  - rewrite Ascii.eqb_sym, E. destruct (Nat.leb_spec (code x) (code y)); [now left|]. right. apply Nat.leb_le. lia.
Qed.
Lemma leb_antisym a : forall b, str_leb a b = true -> str_leb b a = true -> a = b.
Proof.
  induction a as [|x a IH]; intros [|y b]; cbn [str_leb]; auto; try discriminate.
  destruct (Ascii.eqb x y) eqn:E.
  - apply Ascii.eqb_eq in E. subst. rewrite Ascii.eqb_refl. intros. f_equal. now apply IH.
  - rewrite Ascii.eqb_sym, E. intros A B. apply Nat.leb_le in A, B. apply Ascii.eqb_neq in E. exfalso. apply E, code_inj. lia.
Qed.
Lemma leb_trans a : forall b c, str_leb a b = true -> str_leb b c = true -> str_leb a c = true.
Proof.
  induction a as [|x a IH]; intros [|y b] [|z c]; cbn [str_leb]; auto; try discriminate.
  destruct (Ascii.eqb x y) eqn:E1, (Ascii.eqb y z) eqn:E2; intros A B.
  - apply Ascii.eqb_eq in E1, E2. subst. rewrite Ascii.eqb_refl. eauto.
  - apply Ascii.eqb_eq in E1. subst. now rewrite E2.
  - apply Ascii.eqb_eq in E2. subst. now rewrite E1.
  - apply Nat.leb_le in A, B. apply Ascii.eqb_neq in E1, E2. destruct (Ascii.eqb x z) eqn:E3.
    + apply Ascii.eqb_eq in E3. subst. exfalso. apply E1, code_inj. lia.
    + apply Nat.leb_le. lia.
Qed.
Lemma insert_comm x y l : insert x (insert y l) = insert y (insert x l).
Proof.
  induction l as [|z l IH]; cbn [insert].
  - destruct (str_leb x y) eqn:A, (str_leb y x) eqn:B; auto.
    + now rewrite (leb_antisym x y).
    + destruct (leb_total x y); congruence.
  - destruct (str_leb y z) eqn:YZ, (str_leb x z) eqn:XZ; cbn [insert].
    + destruct (str_leb x y) eqn:A, (str_leb y x) eqn:B; cbn [insert]; rewrite ?YZ, ?XZ; auto.
      * now rewrite (leb_antisym x y).
      * destruct (leb_total x y); congruence.
    + rewrite YZ. destruct (str_leb x y) eqn:A.
      * rewrite (leb_trans x y z) in XZ; auto. discriminate.
      * cbn [insert]. now rewrite XZ.
    + rewrite XZ. destruct (str_leb y x) eqn:A.
      * rewrite (leb_trans y x z) in YZ; auto. discriminate.
      * cbn [insert]. now rewrite YZ.
    + rewrite XZ, YZ. now rewrite IH.
Qed.
Lemma sorted_unique l l' : Permutation l l' -> sorted l = sorted l'.
Proof.
  induction 1; cbn [sorted fold_right]; auto.
  - unfold sorted in *. now rewrite IHPermutation.
  - apply insert_comm.
  - congruence.
Qed.

(* ---- the makefile of schemes ---- *)
Lemma ends_with_spec e s : ends_with e s = true <-> exists b, s = b ++ e.
Proof.
  induction s as [|c s IH]; cbn [ends_with]; rewrite orb_true_iff, str_eqb_eq.
  - split; [intros [->|H]; [now exists []|discriminate]|]. intros (b & H). left. symmetry in H. apply app_eq_nil in H as [_ ->]. reflexivity.
  - rewrite IH. split.
    + intros [->|(b & ->)]; [now exists []|]. now exists (c :: b).
    + intros ([|d b] & H); [left; now rewrite H|]. right. injection H as -> ->. now exists b.
Qed.
Lemma suffix_filter e l l' x : of_suffix e l = of_suffix e l' -> ends_with (L e) x = true ->
  count_occ (list_eq_dec Ascii.ascii_dec) l x = count_occ (list_eq_dec Ascii.ascii_dec) l' x.
Proof.
  intros E X.
  assert (K : forall m, count_occ (list_eq_dec Ascii.ascii_dec) m x = count_occ (list_eq_dec Ascii.ascii_dec) (of_suffix e m) x).
  { induction m as [|y m IH]; [reflexivity|]. unfold of_suffix in *. cbn [List.filter].
    destruct (ends_with (L e) y) eqn:Y; cbn [count_occ].
    - destruct (list_eq_dec Ascii.ascii_dec y x); now rewrite IH.
    - destruct (list_eq_dec Ascii.ascii_dec y x) as [->|]; [congruence|exact IH]. }
  rewrite (K l), (K l'). now rewrite E.
Qed.
Lemma filter_ok e l : Forall one_line l -> Forall one_line (of_suffix e l).
Proof. rewrite !Forall_forall. intros H x I. apply List.filter_In in I as [I _]. auto. Qed.
Lemma schemes_inj l l' : Forall (fun x => one_line x /\ known_suffix x) l -> Forall (fun x => one_line x /\ known_suffix x) l' ->
  schemes_makefile (sorted l) = schemes_makefile (sorted l') -> sorted l = sorted l'.
Proof.
  intros F F' E. pose proof (forall_sorted _ l F) as G. pose proof (forall_sorted _ l' F') as G'.
  set (s := sorted l) in *. set (s' := sorted l') in *.
  assert (O : Forall one_line s) by (eapply Forall_impl; [|exact G]; cbn; tauto).
  assert (O' : Forall one_line s') by (eapply Forall_impl; [|exact G']; cbn; tauto).
  unfold schemes_makefile in E. do 2 apply app_inv_head in E.
  assert (ST : forall r, stop (nl :: nl :: r)) by (intros r; right; eauto).
  cbn [app] in E.
  apply items_inj in E as [E1 E]; auto using filter_ok. injection E as E.
  apply items_inj in E as [E2 E]; auto using filter_ok. injection E as E.
  apply items_inj in E as [E3 E]; auto using filter_ok. injection E as E.
  rewrite <- (app_nil_r (mk_items (of_suffix ".f90" s))), <- (app_nil_r (mk_items (of_suffix ".f90" s'))) in E.
  apply items_inj in E as [E4 _]; auto using filter_ok; try now left.
  assert (P : Permutation s s').
  { apply (Permutation_count_occ (list_eq_dec Ascii.ascii_dec)). intros x.
    destruct (in_dec (list_eq_dec Ascii.ascii_dec) x (s ++ s')) as [I|I].
    - assert (K : known_suffix x) by (rewrite Forall_forall in G, G'; apply in_app_or in I as [I|I]; [apply G|apply G']; auto).
      destruct K as (b & [K|[K|[K|K]]]); [apply (suffix_filter ".F")|apply (suffix_filter ".F90")|apply (suffix_filter ".f")|apply (suffix_filter ".f90")]; auto; apply ends_with_spec; eauto.
    - rewrite (proj1 (count_occ_not_In _ s x)), (proj1 (count_occ_not_In _ s' x)); auto; intros J; apply I, in_or_app; auto. }
  assert (Permutation l l').
  { rewrite <- (sorted_perm l), <- (sorted_perm l'). exact P. }
  now apply sorted_unique.
Qed.

(* ---- caps ---- *)
Lemma write_cap_spec now force c f : let '(f', u) := write_cap now force c f in
  holds c f' /\ (u = true -> written_at now f') /\ (u = false -> cf_file f' = cf_file f) /\
  (u = false <-> force = false /\ up_to_date (c, f)).
Proof.
  unfold write_cap. destruct f as [[[old t]|] te]; cbn [cf_file cf_test].
  - destruct force.
    + repeat split; try discriminate; unfold holds, written_at; cbn; eauto. intros [H _]. discriminate.
    + destruct (str_eqb old c) eqn:E.
      * apply str_eqb_eq in E. subst. repeat split; try discriminate; unfold holds, up_to_date; cbn; eauto.
      * apply str_eqb_neq in E. repeat split; try discriminate; unfold holds, written_at; cbn; eauto.
        intros [_ (t' & H)]. cbn in H. injection H as H1 H2. congruence.
  - repeat split; try discriminate; unfold holds, written_at; cbn; eauto. intros [_ (t' & H)]. discriminate.
Qed.
Lemma write_groups_spec now gs : let '(fs', u) := write_groups now gs in
  Forall2 (fun p f' => holds (fst p) f' /\ (up_to_date p -> cf_file f' = cf_file (snd p)) /\ (~ up_to_date p -> written_at now f')) gs fs' /\
  (u = false <-> Forall up_to_date gs).
Proof.
  induction gs as [|[c f] t IH]; cbn [write_groups].
  - split; [constructor|]. split; auto.
  - pose proof (write_cap_spec now false c f) as W. destruct (write_cap now false c f) as [f' u].
    destruct (write_groups now t) as [ft ut]. destruct IH as [I1 I2]. destruct W as (W1 & W2 & W3 & W4). split.
    + constructor; [|exact I1]. cbn [fst snd]. split; [exact W1|]. split.
      * intros U. apply W3, W4. auto.
      * intros U. apply W2. destruct u; [reflexivity|]. exfalso. apply U, W4. reflexivity.
    + rewrite orb_false_iff, W4, I2, Forall_cons_iff. tauto.
Qed.
