From Verif Require Import CompatModel CompatSpec.
Open Scope nat_scope.
Open Scope list_scope.

Lemma strs_eqb_eq a b : strs_eqb a b = true <-> a = b.
Proof.
  revert b; induction a as [|x a IH]; intros [|y b]; cbn [strs_eqb]; try (split; congruence).
  rewrite andb_true_iff, str_eqb_eq, IH. split; [intros [-> ->]; reflexivity|]. intros H. injection H. auto.
Qed.
Lemma strs_eqb_refl a : strs_eqb a a = true.
Proof. now apply strs_eqb_eq. Qed.
Lemma remove1_perm x l r : remove1 x l = Some r -> Permutation l (x :: r).
Proof.
  revert r; induction l as [|y l IH]; intros r H; cbn [remove1] in H; [discriminate|].
  destruct (str_eqb x y) eqn:E.
  - apply str_eqb_eq in E. injection H as <-. now subst.
  - destruct (remove1 x l) as [r'|]; [|discriminate]. injection H as <-.
    rewrite (IH r' eq_refl). apply perm_swap.
Qed.
Lemma same_multiset_perm a b : same_multiset a b = true -> Permutation a b.
Proof.
  revert b; induction a as [|x a IH]; intros b H; cbn [same_multiset] in H.
  - destruct b; [constructor|discriminate].
  - destruct (remove1 x b) as [r|] eqn:E; [|discriminate]. apply remove1_perm in E.
    rewrite E. constructor. auto.
Qed.

(* positions not used yet *)
Definition unused (n : nat) (used : list nat) : list nat :=
  List.filter (fun i => negb (existsb (Nat.eqb i) used)) (seq 0 n).
Definition used_in (used : list nat) (i : nat) : bool := existsb (Nat.eqb i) used.
Lemma used_in_spec used i : used_in used i = true <-> In i used.
Proof.
  unfold used_in. rewrite existsb_exists. split.
  - intros (x & H1 & H2). apply Nat.eqb_eq in H2. now subst.
  - intros H. exists i. split; [exact H|apply Nat.eqb_refl].
Qed.
Lemma unused_spec n used i : In i (unused n used) <-> i < n /\ ~ In i used.
Proof.
  unfold unused. rewrite filter_In, in_seq. fold (used_in used i). rewrite negb_true_iff. split.
  - intros [H1 H2]. split; [lia|]. intros K. apply used_in_spec in K. congruence.
  - intros [H1 H2]. split; [lia|]. destruct (used_in used i) eqn:E; [|reflexivity]. apply used_in_spec in E. contradiction.
Qed.
Lemma unused_nodup n used : NoDup (unused n used).
Proof. apply NoDup_filter, seq_NoDup. Qed.
Lemma unused_snoc n used i : In i (unused n used) ->
  Permutation (unused n used) (i :: unused n (used ++ [i])).
Proof.
  intros H. apply NoDup_Permutation.
  - apply unused_nodup.
  - constructor; [|apply unused_nodup]. rewrite unused_spec. intros [_ K]. apply K. apply in_or_app. right. now left.
  - intros x. cbn [In]. rewrite !unused_spec, in_app_iff. cbn [In].
    apply unused_spec in H. destruct H as [H1 H2]. split.
    + intros [A B]. destruct (Nat.eq_dec i x) as [->|N]; [now left|]. right. split; [exact A|].
      intros [K|[K|[]]]; [auto|congruence].
    + intros [->|[A B]]; [auto|]. split; [exact A|]. intros K. apply B. now left.
Qed.

Lemma find_unused_some v1 d used : forall k i, find_unused v1 d used k = Some i ->
  k <= i /\ nth_error v1 (i - k) = Some d /\ ~ In i used.
Proof.
  induction v1 as [|x v1 IH]; intros k i H; cbn [find_unused] in H; [discriminate|].
  destruct (str_eqb x d && negb (existsb (Nat.eqb k) used)) eqn:E.
  - injection H as <-. apply andb_true_iff in E. destruct E as [E1 E2]. apply str_eqb_eq in E1. subst x.
    rewrite Nat.sub_diag. split; [lia|]. split; [reflexivity|].
    apply negb_true_iff in E2. intros K. apply used_in_spec in K. unfold used_in in K. congruence.
  - destruct (IH _ _ H) as (A & B & C). split; [lia|]. split; [|exact C].
    replace (i - k) with (S (i - S k)) by lia. exact B.
Qed.
Lemma find_unused_none v1 d used : forall k, find_unused v1 d used k = None ->
  forall i, nth_error v1 i = Some d -> In (k + i) used.
Proof.
  induction v1 as [|x v1 IH]; intros k H i Hi; [destruct i; discriminate|].
  cbn [find_unused] in H.
  destruct (str_eqb x d && negb (existsb (Nat.eqb k) used)) eqn:E; [discriminate|].
  destruct i as [|i].
  - cbn in Hi. injection Hi as ->. rewrite str_eqb_refl in E. cbn [andb] in E. apply negb_false_iff in E.
    rewrite Nat.add_0_r. apply used_in_spec. exact E.
  - cbn in Hi. replace (k + S i) with (S k + i) by lia. now apply IH.
Qed.

Definition opt_get (l : list (option nat)) (i : nat) : option nat :=
  match nth_error l i with Some (Some j) => Some j | _ => None end.

(* loop invariant *)
Record loop_inv (v1 v2done : list str) (s : perm_state) : Prop := {
  li_len : length (ps_f s) = length v2done;
  li_rlen : length (ps_r s) = length v1;
  li_nodup : NoDup (ps_f s);
  li_dims : forall j i, nth_error (ps_f s) j = Some i ->
      i < length v1 /\ nth_error v1 i = nth_error v2done j /\ opt_get (ps_r s) i = Some j;
  li_back : forall i j, opt_get (ps_r s) i = Some j -> nth_error (ps_f s) j = Some i;
  li_h : match ps_fh s, ps_rh s with
         | Some a, Some b => nth_error (ps_f s) b = Some a
         | None, None => True
         | _, _ => False
         end;
  li_v : match ps_fv s, ps_rv s with
         | Some a, Some b => nth_error (ps_f s) b = Some a
         | None, None => True
         | _, _ => False
         end }.

Lemma nth_error_snoc {A} (l : list A) x j y : nth_error (l ++ [x]) j = Some y ->
  (j < length l /\ nth_error l j = Some y) \/ (j = length l /\ x = y).
Proof.
  intros H. destruct (lt_dec j (length l)) as [Hj|Hj].
  - left. split; [exact Hj|]. now rewrite nth_error_app1 in H.
  - right. rewrite nth_error_app2 in H by lia. destruct (j - length l) as [|k] eqn:E.
    + cbn in H. split; [lia|congruence].
    + cbn in H. destruct k; discriminate.
Qed.
Lemma nth_error_snoc_l {A} (l : list A) x j y : nth_error l j = Some y -> nth_error (l ++ [x]) j = Some y.
Proof. intros H. rewrite nth_error_app1; [exact H|]. apply nth_error_Some. congruence. Qed.
Lemma nth_error_snoc_r {A} (l : list A) x : nth_error (l ++ [x]) (length l) = Some x.
Proof. rewrite nth_error_app2, Nat.sub_diag; [reflexivity|lia]. Qed.

Definition remaining (v1 : list str) (used : list nat) : list str :=
  map (fun i => nth i v1 []) (unused (length v1) used).

Lemma perm_step_inv var1 var2 v1 s done d rest :
  loop_inv v1 done s -> Permutation (remaining v1 (ps_f s)) (d :: rest) ->
  let s' := perm_step var1 var2 v1 s (length done) d in
  loop_inv v1 (done ++ [d]) s' /\ Permutation (remaining v1 (ps_f s')) rest.
Proof.
  intros I P. unfold perm_step.
  assert (Hd : In d (remaining v1 (ps_f s))) by (rewrite P; now left).
  unfold remaining in Hd. apply in_map_iff in Hd. destruct Hd as (i0 & E0 & H0).
  apply unused_spec in H0. destruct H0 as [L0 U0].
  assert (N0 : nth_error v1 i0 = Some d) by (rewrite <- E0; now apply nth_error_nth').
  destruct (find_unused v1 d (ps_f s) 0) as [i|] eqn:F.
  2:{ pose proof (find_unused_none _ _ _ _ F _ N0) as K. contradiction. }
  destruct (find_unused_some _ _ _ _ _ F) as (_ & Ni & Ui). rewrite Nat.sub_0_r in Ni.
  assert (Li : i < length v1) by (apply nth_error_Some; congruence).
  destruct I as [I1 I2 I3 I4 I5 I6 I7].
  assert (R1 : opt_get (list_set (ps_r s) i (Some (length done))) i = Some (length done)).
  { unfold opt_get. rewrite nth_error_list_set_eq; [reflexivity|lia]. }
  assert (R2 : forall k, k <> i -> opt_get (list_set (ps_r s) i (Some (length done))) k = opt_get (ps_r s) k).
  { intros k Hk. unfold opt_get. rewrite nth_error_list_set_neq; [reflexivity|congruence]. }
  assert (J : forall fhd fh' fv' rhd rh' rv',
    (match fh', rh' with Some a, Some b => nth_error (ps_f s ++ [i]) b = Some a | None, None => True | _, _ => False end) ->
    (match fv', rv' with Some a, Some b => nth_error (ps_f s ++ [i]) b = Some a | None, None => True | _, _ => False end) ->
    loop_inv v1 (done ++ [d]) (mkPS (ps_f s ++ [i]) (list_set (ps_r s) i (Some (length done))) fhd fh' fv' rhd rh' rv')).
  { intros fhd fh' fv' rhd rh' rv' Hh Hv. constructor; cbn [ps_f ps_r ps_fh ps_fv ps_rh ps_rv]; auto.
    - rewrite !app_length. cbn. lia.
    - now rewrite list_set_length.
    - now apply NoDup_snoc.
    - intros j k Hj. apply nth_error_snoc in Hj. destruct Hj as [[Lj Hj]|[-> <-]].
      + destruct (I4 _ _ Hj) as (A & B & C). split; [exact A|]. split.
        * rewrite B. symmetry. apply nth_error_app1. lia.
        * rewrite R2; [exact C|]. intros ->. apply Ui. eapply nth_error_In; eauto.
      + split; [exact Li|]. split.
        * rewrite Ni, I1. symmetry. apply nth_error_snoc_r.
        * now rewrite I1.
    - intros k j Hk. destruct (Nat.eq_dec k i) as [->|N].
      + rewrite R1 in Hk. injection Hk as <-. rewrite <- I1. apply nth_error_snoc_r.
      + rewrite R2 in Hk by exact N. apply nth_error_snoc_l. now apply I5. }
  assert (Hh : match ps_fh s, ps_rh s with Some a, Some b => nth_error (ps_f s ++ [i]) b = Some a | None, None => True | _, _ => False end).
  { destruct (ps_fh s), (ps_rh s); auto. now apply nth_error_snoc_l. }
  assert (Hv : match ps_fv s, ps_rv s with Some a, Some b => nth_error (ps_f s ++ [i]) b = Some a | None, None => True | _, _ => False end).
  { destruct (ps_fv s), (ps_rv s); auto. now apply nth_error_snoc_l. }
  assert (Hn : nth_error (ps_f s ++ [i]) (length done) = Some i) by (rewrite <- I1; apply nth_error_snoc_r).
  assert (Q : Permutation (remaining v1 (ps_f s ++ [i])) rest).
  { apply (Permutation_cons_inv (a := d)). rewrite <- P. unfold remaining.
    assert (M := Permutation_map (fun i => nth i v1 []) (unused_snoc (length v1) (ps_f s) i (proj2 (unused_spec _ _ _) (conj Li Ui)))).
    cbn [map] in M. rewrite (nth_error_nth v1 i [] Ni) in M. symmetry. exact M. }
  cbv zeta. destruct (is_horizontal (nth i var1 [])); [|destruct (is_vertical (nth i var1 []))];
    cbn [ps_f]; (split; [apply J; auto|exact Q]).
Qed.

Lemma perm_loop_inv var1 var2 v1 : forall v2 s done,
  loop_inv v1 done s -> Permutation (remaining v1 (ps_f s)) v2 ->
  loop_inv v1 (done ++ v2) (perm_loop var1 var2 v1 s (length done) v2).
Proof.
  induction v2 as [|d v2 IH]; intros s done I P; cbn [perm_loop].
  - now rewrite app_nil_r.
  - destruct (perm_step_inv var1 var2 v1 s done d v2 I P) as [I' P'].
    specialize (IH _ _ I' P'). rewrite app_length in IH. cbn [length] in IH.
    rewrite Nat.add_1_r in IH. now rewrite <- app_assoc in IH.
Qed.

Lemma start_inv v1 : loop_inv v1 [] (mkPS [] (List.repeat None (length v1)) [] None None [] None None).
Proof.
  constructor; cbn; auto.
  - apply repeat_length.
  - constructor.
  - intros j i H. destruct j; discriminate.
  - intros i j H. unfold opt_get in H.
    destruct (nth_error (List.repeat None (length v1)) i) as [o|] eqn:E; [|discriminate].
    apply nth_error_In, repeat_spec in E. subst o. discriminate.
Qed.
Lemma remaining_all v1 : remaining v1 [] = v1.
Proof.
  unfold remaining, unused.
  assert (F : forall l, List.filter (fun i => negb (existsb (Nat.eqb i) [])) l = l).
  { induction l as [|x l IH]; [reflexivity|]. cbn. f_equal. exact IH. }
  rewrite F. symmetry. apply (nth_ext _ _ [] []).
  - now rewrite map_length, seq_length.
  - intros n Hn. set (f := fun i => nth i v1 []).
    rewrite (nth_indep (map f (seq 0 (length v1))) [] (f 0)) by (rewrite map_length, seq_length; exact Hn).
    rewrite (map_nth f). rewrite seq_nth by exact Hn. reflexivity.
Qed.

Lemma all_some_nth l r : all_some l = Some r -> length r = length l /\ forall i, nth_error r i = opt_get l i.
Proof.
  revert r; induction l as [|[x|] l IH]; intros r H; cbn [all_some] in H; try discriminate.
  - injection H as <-. split; [reflexivity|]. intros [|i]; reflexivity.
  - destruct (all_some l) as [r'|]; [|discriminate]. injection H as <-.
    destruct (IH r' eq_refl) as [E1 E2]. split; [cbn; now rewrite E1|]. intros [|i]; [reflexivity|]. cbn. rewrite E2. reflexivity.
Qed.

(* a duplicate-free list of n numbers below n hits every number below n *)
Lemma nodup_full (l : list nat) n : NoDup l -> (forall x, In x l -> x < n) -> length l = n ->
  forall i, i < n -> In i l.
Proof.
  intros N B Len i Hi.
  assert (I : incl (seq 0 n) l).
  { apply NoDup_length_incl; [exact N|rewrite seq_length; lia|].
    intros x Hx. apply in_seq. split; [lia|]. cbn. now apply B. }
  apply I. apply in_seq. lia.
Qed.

Record dt_spec (var1 var2 : list str) (t : dim_transform) : Prop := {
  ds_inv : inverse_perms (length var1) (fperm t) (rperm t);
  ds_len : length var1 = length var2;
  ds_dims : forall j i, nth_error (fperm t) j = Some i ->
      nth_error (regularize var1) i = nth_error (regularize var2) j;
  ds_h : nth_error (fperm t) (rh t) = Some (fh t);
  ds_hr : nth_error (rperm t) (fh t) = Some (rh t);
  ds_v : match fv t, rv t with
         | Some a, Some b => nth_error (fperm t) b = Some a /\ nth_error (rperm t) a = Some b
         | None, None => True
         | _, _ => False
         end }.

Lemma regularize_length d : length (regularize d) = length d.
Proof. apply map_length. Qed.

Lemma get_dim_transforms_spec var1 var2 eqv t :
  get_dim_transforms var1 var2 = Ok (eqv, Some t) -> dt_spec var1 var2 t.
Proof.
  unfold get_dim_transforms. intros H.
  set (v1 := regularize var1) in *. set (v2 := regularize var2) in *.
  destruct ((length v1 =? length v2) && same_multiset v1 v2) eqn:E; [|discriminate].
  apply andb_true_iff in E. destruct E as [E1 E2]. apply Nat.eqb_eq in E1. apply same_multiset_perm in E2.
  assert (I := perm_loop_inv var1 var2 v1 v2 _ [] (start_inv v1)).
  cbn [ps_f length app] in I. rewrite remaining_all in I. specialize (I E2).
  set (s := perm_loop var1 var2 v1 (mkPS [] (List.repeat None (length v1)) [] None None [] None None) 0 v2) in *.
  destruct (negb (length (ps_f s) =? length v1)) eqn:El; [discriminate|].
  destruct (all_some (ps_r s)) as [r|] eqn:Er; [|discriminate].
  destruct (all_some_nth _ _ Er) as [Lr Nr].
  apply bind_ok in H. destruct H as (t' & Hm & Ht). injection Ht as <- ->.
  unfold make_dt in Hm.
  repeat match type of Hm with (if ?c then _ else _) = _ => destruct c; [discriminate|] end.
  destruct (ps_fh s) as [a|] eqn:Ea; [|discriminate]. destruct (ps_rh s) as [b|] eqn:Eb; [|discriminate].
  injection Hm as <-.
  destruct I as [I1 I2 I3 I4 I5 I6 I7]. rewrite Ea, Eb in I6.
  assert (L1 : length v1 = length var1) by apply regularize_length.
  assert (Lf : length (ps_f s) = length var1) by lia.
  assert (Bf : forall x, In x (ps_f s) -> x < length var1).
  { intros x Hx. apply In_nth_error in Hx. destruct Hx as [j Hj]. destruct (I4 _ _ Hj) as [K _]. lia. }
  assert (Back : forall j i, nth_error (ps_f s) j = Some i -> nth_error r i = Some j).
  { intros j i Hj. rewrite Nr. now destruct (I4 _ _ Hj) as (_ & _ & K). }
  constructor; cbn [fperm rperm fh rh fv rv].
  - split; [exact Lf|]. split; [lia|]. split.
    + intros j Hj. destruct (nth_error (ps_f s) j) as [i|] eqn:Ej.
      * exists i. split; [reflexivity|]. split; [apply Bf; eapply nth_error_In; eauto|now apply Back].
      * apply nth_error_None in Ej. lia.
    + intros i Hi. pose proof (nodup_full (ps_f s) (length var1) I3 Bf Lf i Hi) as Hin.
      apply In_nth_error in Hin. destruct Hin as [j Hj]. exists j. split; [now apply Back|]. split; [|exact Hj].
      rewrite <- Lf. apply nth_error_Some. congruence.
  - rewrite <- L1, E1. apply regularize_length.
  - intros j i Hj. now destruct (I4 _ _ Hj) as (_ & K & _).
  - exact I6.
  - now apply Back.
  - destruct (ps_fv s) as [x|], (ps_rv s) as [y|]; auto.
Qed.

(* ---- round trips ---- *)
Lemma gather_spec p idx l : gather p idx = Some l ->
  length l = length p /\ forall j i, nth_error p j = Some i -> nth_error l j = nth_error idx i.
Proof.
  revert l; induction p as [|x p IH]; intros l H; cbn [gather] in H.
  - injection H as <-. split; [reflexivity|]. intros j i Hj. destruct j; discriminate.
  - destruct (nth_error idx x) as [v|] eqn:E; [|discriminate].
    destruct (gather p idx) as [r|]; [|discriminate]. injection H as <-.
    destruct (IH r eq_refl) as [A B]. split; [cbn; now rewrite A|].
    intros [|j] i Hj; cbn in *; [injection Hj as <-; now rewrite E|now apply B].
Qed.
Lemma gather_total p idx : (forall i, In i p -> i < length idx) -> exists l, gather p idx = Some l.
Proof.
  induction p as [|x p IH]; intros H; cbn [gather]; [eauto|].
  destruct (nth_error idx x) as [v|] eqn:E.
  - destruct IH as [l El]; [intros i Hi; apply H; now right|]. rewrite El. eauto.
  - apply nth_error_None in E. specialize (H x (or_introl eq_refl)). lia.
Qed.
Lemma upd_nth l i f j : nth_error (upd l i f) j = if j =? i then option_map f (nth_error l j) else nth_error l j.
Proof.
  unfold upd. destruct (nth_error l i) as [v|] eqn:E.
  - destruct (Nat.eqb_spec j i) as [->|N].
    + rewrite nth_error_list_set_eq by (apply nth_error_Some; congruence). now rewrite E.
    + now rewrite nth_error_list_set_neq by congruence.
  - destruct (Nat.eqb_spec j i) as [->|N]; [now rewrite E|reflexivity].
Qed.
Lemma upd_length l i f : length (upd l i f) = length l.
Proof. unfold upd. destruct (nth_error l i); [apply list_set_length|reflexivity]. Qed.

Lemma inverse_in n p q i : inverse_perms n p q -> In i p -> i < n.
Proof.
  intros (A & B & C & D) H. apply In_nth_error in H. destruct H as [j Hj].
  assert (Lj : j < n) by (rewrite <- A; apply nth_error_Some; congruence).
  destruct (C j Lj) as (i' & E & K & _). congruence.
Qed.
Lemma inverse_sym n p q : inverse_perms n p q -> inverse_perms n q p.
Proof. intros (A & B & C & D). repeat split; auto. Qed.

Lemma opt_nth_ext (a b : list Z) : (forall j, nth_error a j = nth_error b j) -> a = b.
Proof.
  revert b; induction a as [|x a IH]; intros [|y b] H; auto.
  - specialize (H 0). discriminate.
  - specialize (H 0). discriminate.
  - pose proof (H 0) as H0. cbn in H0. injection H0 as ->. f_equal. apply IH. intros j. apply (H (S j)).
Qed.

(* the value changes are position-wise; both directions touch the same position *)
Definition adj_fun (t : dim_transform) (adj : option Z) (fwd : bool) : Z -> Z :=
  fun h => match adj with
           | None => h
           | Some c => if v1_hloop t && negb (v2_hloop t) then (if fwd then h + c - 1 else h - c + 1)
                       else if v2_hloop t && negb (v1_hloop t) then (if fwd then h - c + 1 else h + c - 1)
                       else h
           end%Z.
Definition flip_fun (flip : option Z) : Z -> Z := fun v => match flip with None => v | Some n => n - v + 1 end%Z.
Lemma adj_inv t adj h : adj_fun t adj false (adj_fun t adj true h) = h.
Proof. unfold adj_fun. destruct adj as [c|]; [|reflexivity]. destruct (v1_hloop t), (v2_hloop t); cbn; lia. Qed.
Lemma flip_inv flip v : flip_fun flip (flip_fun flip v) = v.
Proof. unfold flip_fun. destruct flip; lia. Qed.

Lemma upd_id l i : upd l i (fun h => h) = l.
Proof.
  apply opt_nth_ext. intros j. rewrite upd_nth. destruct (j =? i); [|reflexivity]. destruct (nth_error l j); reflexivity.
Qed.
Lemma forward_as_upd t adj flip idx :
  forward t adj flip idx =
  match gather (fperm t) idx with
  | None => None
  | Some l => let l1 := upd l (fh t) (adj_fun t adj true) in
              Some (upd l1 (vpos (fv t) l1) (flip_fun flip))
  end.
Proof.
  unfold forward. destruct (gather (fperm t) idx) as [l|]; [|reflexivity]. cbv zeta. f_equal.
  assert (E : match adj with
     | Some c => if v1_hloop t && negb (v2_hloop t) then upd l (fh t) (fun h => (h + c - 1)%Z)
         else if v2_hloop t && negb (v1_hloop t) then upd l (fh t) (fun h => (h - c + 1)%Z) else l
     | None => l end = upd l (fh t) (adj_fun t adj true)).
  { unfold adj_fun. destruct adj as [c|]; [|now rewrite upd_id].
    destruct (v1_hloop t && negb (v2_hloop t)); [reflexivity|].
    destruct (v2_hloop t && negb (v1_hloop t)); [reflexivity|]. now rewrite upd_id. }
  rewrite E. unfold flip_fun. destruct flip; [reflexivity|]. now rewrite upd_id.
Qed.
Lemma reverse_as_upd t adj flip idx :
  reverse t adj flip idx =
  match gather (rperm t) idx with
  | None => None
  | Some l => let l1 := upd l (rh t) (adj_fun t adj false) in
              Some (upd l1 (vpos (rv t) l1) (flip_fun flip))
  end.
Proof.
  unfold reverse. destruct (gather (rperm t) idx) as [l|]; [|reflexivity]. cbv zeta. f_equal.
  assert (E : match adj with
     | Some c => if v1_hloop t && negb (v2_hloop t) then upd l (rh t) (fun h => (h - c + 1)%Z)
         else if v2_hloop t && negb (v1_hloop t) then upd l (rh t) (fun h => (h + c - 1)%Z) else l
     | None => l end = upd l (rh t) (adj_fun t adj false)).
  { unfold adj_fun. destruct adj as [c|]; [|now rewrite upd_id].
    destruct (v1_hloop t && negb (v2_hloop t)); [reflexivity|].
    destruct (v2_hloop t && negb (v1_hloop t)); [reflexivity|]. now rewrite upd_id. }
  rewrite E. unfold flip_fun. destruct flip; [reflexivity|]. now rewrite upd_id.
Qed.

Lemma roundtrip n t adj flip idx :
  inverse_perms n (fperm t) (rperm t) -> length idx = n ->
  (adj = None \/ (fh t = rh t /\ nth_error (rperm t) (rh t) = Some (fh t))) ->
  (flip = None \/ match fv t, rv t with
                  | Some a, Some b => a = b /\ nth_error (rperm t) b = Some a /\ a <> fh t
                  | _, _ => False end) ->
  exists idx2, forward t adj flip idx = Some idx2 /\ length idx2 = n /\ reverse t adj flip idx2 = Some idx.
Proof.
  intros I Hl Ha Hf.
  destruct (gather_total (fperm t) idx) as [l El].
  { intros i Hi. rewrite Hl. eapply inverse_in; eauto. }
  destruct (gather_spec _ _ _ El) as [Ll Nl].
  rewrite forward_as_upd, El. cbv zeta. eexists. split; [reflexivity|].
  assert (LL : length l = n) by (destruct I as (A & _); lia).
  split; [now rewrite !upd_length|].
  rewrite reverse_as_upd.
  set (l2 := upd _ _ _).
  assert (Ll2 : length l2 = n) by (unfold l2; now rewrite !upd_length).
  destruct (gather_total (rperm t) l2) as [m Em].
  { intros i Hi. rewrite Ll2. eapply inverse_in; [apply inverse_sym|]; eauto. }
  destruct (gather_spec _ _ _ Em) as [Lm Nm]. rewrite Em. cbv zeta. f_equal.
  apply opt_nth_ext. intros i.
  destruct (lt_dec i n) as [Hi|Hi].
  2:{ assert (nth_error idx i = None) as -> by (apply nth_error_None; lia).
      apply nth_error_None. rewrite !upd_length. destruct I as (_ & B & _). lia. }
  destruct I as (A & B & C & D). destruct (D i Hi) as (j & Ej & Hj & Ej').
  rewrite !upd_nth, (Nm i j Ej). unfold l2. rewrite !upd_nth, (Nl j i Ej').
  destruct (nth_error idx i) as [v|] eqn:Ev; [|apply nth_error_None in Ev; lia].
  assert (VP : forall x y, length x = n -> length y = n -> (flip = None \/ vpos (fv t) x = vpos (rv t) y)).
  { intros x y _ _. destruct Hf as [Hf|Hf]; [now left|right]. destruct (fv t), (rv t); try contradiction.
    destruct Hf as [-> _]. reflexivity. }
  (* the horizontal adjustment happens at the same element in both directions *)
  assert (HH : adj = None \/ (j =? fh t) = (i =? rh t)).
  { destruct Ha as [Ha|[E1 E2]]; [now left|right].
    destruct (Nat.eqb_spec j (fh t)) as [->|N1], (Nat.eqb_spec i (rh t)) as [->|N2]; auto; exfalso.
    - destruct (D (rh t)) as (j' & F1 & F2 & F3); [rewrite <- E1, <- A; apply nth_error_Some; congruence|].
      rewrite E2 in F1. injection F1 as <-. congruence.
    - congruence. }
  assert (HV : flip = None \/ (j =? vpos (fv t) (upd l (fh t) (adj_fun t adj true))) =
                              (i =? vpos (rv t) (upd m (rh t) (adj_fun t adj false)))).
  { destruct Hf as [Hf|Hf]; [now left|right]. destruct (fv t) as [a|], (rv t) as [b|]; try contradiction.
    destruct Hf as (-> & E2 & _). cbn [vpos].
    destruct (Nat.eqb_spec j b) as [->|N1], (Nat.eqb_spec i b) as [->|N2]; auto; exfalso.
    - destruct (D b) as (j' & F1 & F2 & F3); [exact Hj|]. rewrite E2 in F1. injection F1 as <-. congruence.
    - congruence. }
  set (bv := j =? vpos (fv t) _) in *. set (bh := j =? fh t) in *.
  assert (NO : adj = None \/ flip = None \/ bh && bv = false).
  { destruct Hf as [Hf|Hf]; [now right; left|]. right; right. destruct (fv t) as [a|] eqn:Ea, (rv t) as [b|]; try contradiction.
    destruct Hf as (-> & _ & Nh). unfold bh, bv. cbn [vpos].
    destruct (Nat.eqb_spec j (fh t)), (Nat.eqb_spec j b); cbn; auto; congruence. }
  assert (S1 : (if i =? rh t then adj_fun t adj false else fun x => x) = (if bh then adj_fun t adj false else fun x => x) \/ adj = None).
  { destruct HH as [->|HH]; [now right|left]. now rewrite HH. }
  clear Ha Hf VP.
  assert (G : forall b1 b2 b3 b4, (adj = None \/ b1 = b3) -> (flip = None \/ b2 = b4) -> (adj = None \/ flip = None \/ b1 && b2 = false) ->
    (if b4 then option_map (flip_fun flip)
        (if b3 then option_map (adj_fun t adj false)
            (if b2 then option_map (flip_fun flip) (if b1 then option_map (adj_fun t adj true) (Some v) else Some v)
             else if b1 then option_map (adj_fun t adj true) (Some v) else Some v)
         else if b2 then option_map (flip_fun flip) (if b1 then option_map (adj_fun t adj true) (Some v) else Some v)
              else if b1 then option_map (adj_fun t adj true) (Some v) else Some v)
     else if b3 then option_map (adj_fun t adj false)
            (if b2 then option_map (flip_fun flip) (if b1 then option_map (adj_fun t adj true) (Some v) else Some v)
             else if b1 then option_map (adj_fun t adj true) (Some v) else Some v)
         else if b2 then option_map (flip_fun flip) (if b1 then option_map (adj_fun t adj true) (Some v) else Some v)
              else if b1 then option_map (adj_fun t adj true) (Some v) else Some v) = Some v).
  { intros b1 b2 b3 b4 K1 K2 K3.
    assert (An : adj = None -> forall fw x, adj_fun t adj fw x = x) by (intros ->; reflexivity).
    assert (Fn : flip = None -> forall x, flip_fun flip x = x) by (intros ->; reflexivity).
    destruct K1 as [K1|<-], K2 as [K2|<-]; destruct b1, b2; try destruct b3; try destruct b4; cbn [option_map];
      f_equal; rewrite ?(An K1), ?(Fn K2), ?adj_inv, ?flip_inv, ?(An K1), ?(Fn K2); try reflexivity.
    destruct K3 as [K|[K|K]]; [|rewrite ?(Fn K), ?adj_inv, ?(Fn K); reflexivity|discriminate].
    rewrite ?(An K), ?flip_inv. reflexivity. }
  apply G; auto.
Qed.


(* ---- which positions the horizontal and vertical indices record ---- *)
Definition hv_inv (var1 : list str) (s : perm_state) : Prop :=
  (forall a, ps_fh s = Some a -> is_horizontal (nth a var1 []) = true) /\
  (forall a, ps_fv s = Some a -> is_horizontal (nth a var1 []) = false /\ is_vertical (nth a var1 []) = true).
Lemma perm_loop_hv var1 var2 v1 : forall v2 s j, hv_inv var1 s -> hv_inv var1 (perm_loop var1 var2 v1 s j v2).
Proof.
  induction v2 as [|d v2 IH]; intros s j I; cbn [perm_loop]; [exact I|]. apply IH.
  unfold perm_step. destruct (find_unused v1 d (ps_f s) 0) as [i|]; [|exact I]. cbv zeta.
  destruct I as [I1 I2].
  destruct (is_horizontal (nth i var1 [])) eqn:Eh; [|destruct (is_vertical (nth i var1 [])) eqn:Ev];
    split; cbn [ps_fh ps_fv]; intros a Ha; auto; injection Ha as <-; auto.
Qed.
Lemma get_dim_transforms_hv var1 var2 eqv t :
  get_dim_transforms var1 var2 = Ok (eqv, Some t) ->
  is_horizontal (nth (fh t) var1 []) = true /\
  (forall a, fv t = Some a -> is_horizontal (nth a var1 []) = false /\ is_vertical (nth a var1 []) = true) /\
  (fv t = None -> forall j i, nth_error (fperm t) j = Some i ->
      is_horizontal (nth i var1 []) = true \/ is_vertical (nth i var1 []) = false).
Proof.
  unfold get_dim_transforms. intros H.
  set (v1 := regularize var1) in *. set (v2 := regularize var2) in *.
  destruct ((length v1 =? length v2) && same_multiset v1 v2) eqn:E; [|discriminate].
  set (s0 := mkPS [] (List.repeat None (length v1)) [] None None [] None None) in *.
  assert (I : hv_inv var1 (perm_loop var1 var2 v1 s0 0 v2)).
  { apply perm_loop_hv. split; cbn; discriminate. }
  assert (NV : forall vs s j, ps_fv (perm_loop var1 var2 v1 s j vs) = None ->
     ps_fv s = None /\
     ((forall i, In i (ps_f s) -> is_horizontal (nth i var1 []) = true \/ is_vertical (nth i var1 []) = false) ->
      forall i, In i (ps_f (perm_loop var1 var2 v1 s j vs)) -> is_horizontal (nth i var1 []) = true \/ is_vertical (nth i var1 []) = false)).
  { induction vs as [|d vs IH]; intros s j Hs; cbn [perm_loop] in *; [auto|].
    destruct (IH _ _ Hs) as [A B]. unfold perm_step in A, B |- *.
    destruct (find_unused v1 d (ps_f s) 0) as [i|]; [|auto]. cbv zeta in A, B.
    destruct (is_horizontal (nth i var1 [])) eqn:Eh; [|destruct (is_vertical (nth i var1 [])) eqn:Ev];
      cbn [ps_fv ps_f] in A, B; try discriminate; (split; [exact A|]); intros C; apply B; intros k Hk;
      apply in_app_or in Hk; destruct Hk as [Hk|[<-|[]]]; auto. }
  specialize (NV v2 s0 0).
  set (s := perm_loop var1 var2 v1 s0 0 v2) in *.
  destruct (negb (length (ps_f s) =? length v1)) eqn:El; [discriminate|].
  destruct (all_some (ps_r s)) as [r|] eqn:Er; [|discriminate].
  apply bind_ok in H. destruct H as (t' & Hm & Ht). injection Ht as <- ->.
  unfold make_dt in Hm.
  repeat match type of Hm with (if ?c then _ else _) = _ => destruct c; [discriminate|] end.
  destruct (ps_fh s) as [a|] eqn:Ea; [|discriminate]. destruct (ps_rh s) as [b|] eqn:Eb; [|discriminate].
  injection Hm as <-. cbn [fh fv fperm].
  destruct I as [I1 I2]. split; [now apply I1|]. split; [exact I2|].
  intros K j i Hj. destruct (NV K) as [_ B]. apply B; [cbn; tauto|]. eapply nth_error_In; eauto.
Qed.

(* regularized dimensions *)
Lemma reg_dim_horizontal d : reg_dim d = hdim_temp -> is_horizontal d = true.
Proof.
  unfold reg_dim. destruct (is_horizontal d); [reflexivity|].
  destruct (contains (L ":") d) eqn:E; intros H.
  - subst d. vm_compute in E. discriminate.
  - exfalso. vm_compute in H. discriminate.
Qed.
Lemma reg_dim_same a b : reg_dim a = reg_dim b -> same_dim a b.
Proof.
  intros H. unfold same_dim.
  destruct (is_horizontal a) eqn:Ea.
  - left. split; [reflexivity|]. apply reg_dim_horizontal. rewrite <- H. unfold reg_dim. now rewrite Ea.
  - destruct (is_horizontal b) eqn:Eb.
    + exfalso. assert (K : reg_dim a = hdim_temp) by (rewrite H; unfold reg_dim; now rewrite Eb).
      apply reg_dim_horizontal in K. congruence.
    + right. unfold reg_dim in H. rewrite Ea, Eb in H.
      destruct (contains (L ":") a), (contains (L ":") b); auto. left. now apply app_inv_head in H.
Qed.
Lemma is_vertical_cases d : is_vertical d = true -> In d vertical_dims.
Proof. unfold is_vertical. rewrite existsb_exists. intros (x & H & E). apply str_eqb_eq in E. now subst. Qed.
Lemma same_vertical_lr a b : is_horizontal a = false -> is_horizontal b = false -> plain_vertical a -> plain_vertical b ->
  reg_dim a = reg_dim b -> is_vertical a = true -> is_vertical b = true.
Proof.
  intros Ha Hb Pa Pb H V. apply is_vertical_cases in V. unfold reg_dim in H. rewrite Ha, Hb in H.
  destruct (contains (L ":") b) eqn:Cb; destruct (contains (L ":") a) eqn:Ca.
  - subst b. unfold is_vertical. rewrite existsb_exists. exists a. split; [exact V|apply str_eqb_refl].
  - subst b. unfold plain_vertical in Pb. 
    repeat (destruct V as [<-|V]; [try (vm_compute in Ca; discriminate); try reflexivity; exfalso; tauto|]). destruct V.
  - subst a. repeat (destruct V as [V|V]; [injection V as V; subst b; reflexivity || discriminate V|]); try destruct V.
    all: try (vm_compute in V; discriminate).
    all: try discriminate.
  - apply app_inv_head in H. subst b. unfold is_vertical. rewrite existsb_exists. exists a. split; [exact V|apply str_eqb_refl].
Qed.
