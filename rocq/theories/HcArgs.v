(* Arguments and local variables of the generated host cap: proofs for C127 and C128. *)
From Coq Require Import List Ascii String Bool Arith ZArith Lia.
Import ListNotations.
From Verif Require Import Base PyStr ReqModel ReqProofs HcModel HcSpec HcProofs.
Open Scope string_scope.
Open Scope list_scope.
Open Scope nat_scope.

Definition prop_t : str := L "ccpp_constituent_properties_t".
Definition is_prop (d : dummy) : bool := str_eqb (d_type d) prop_t.

(* ===== call_args ===== *)

Lemma lookup_spec : forall h n x, lookup_var h n = Some x ->
  h_host h n = Some x \/ (h_host h n = None /\ h_cons h n = Some x).
Proof. intros h n x H. unfold lookup_var in H. destruct (h_host h n); [left|right]; auto. Qed.

Lemma call_args_passes : forall h dyn l args, call_args h dyn l = Ok args ->
  (forall d, In d l -> d_type d = prop_t -> dyn = true /\ d_const d = false) ->
  Forall2 (passes h) (real_dummies l) args.
Proof.
  intros h dyn. induction l as [|d l IH]; intros args H Hd; cbn [call_args] in H.
  - injection H as <-. constructor.
  - cbn [real_dummies List.filter]. fold (real_dummies l).
    assert (Hl : forall d, In d l -> d_type d = prop_t -> dyn = true /\ d_const d = false)
      by (intros d' Hin; apply Hd; now right).
    destruct (str_eqb (d_type d) const_prop_t) eqn:E.
    + apply str_eqb_eq in E. destruct (Hd d (or_introl eq_refl) E) as [-> Hc]. rewrite Hc. cbn [negb].
      apply bind_inv in H. destruct H as (r & Hr & H). injection H as <-. constructor; [|now apply IH].
      split; [reflexivity|]. split; [reflexivity|]. intros N. contradiction.
    + destruct (lookup_var h (d_std d)) as [x|] eqn:El; [|discriminate].
      apply bind_inv in H. destruct H as (r & Hr & H). injection H as <-.
      destruct (d_const d); cbn [negb]; [now apply IH|]. constructor; [|now apply IH].
      split; [reflexivity|]. cbn [snd]. split.
      * intros N. apply str_eqb_neq in E. contradiction.
      * intros _. now apply lookup_spec.
Qed.

Lemma call_args_ok : forall h dyn l,
  (forall d, In d l -> d_type d <> prop_t -> lookup_var h (d_std d) <> None) ->
  exists args, call_args h dyn l = Ok args.
Proof.
  intros h dyn. induction l as [|d l IH]; intros H; [now exists []|]. cbn [call_args].
  destruct IH as (r & Hr); [intros d' Hin; apply H; now right|]. rewrite Hr. cbn [bind].
  destruct (str_eqb (d_type d) const_prop_t) eqn:E; [eexists; reflexivity|].
  apply str_eqb_neq in E. assert (N := H d (or_introl eq_refl) E).
  destruct (lookup_var h (d_std d)); [eexists; reflexivity|contradiction].
Qed.

(* ===== the local variables ===== *)

Lemma fold_res_app : forall {T U} (f : T -> U -> res T) l l' a,
  fold_res f a (l ++ l') = (b <- fold_res f a l ;; fold_res f b l').
Proof.
  intros T U f. induction l as [|x l IH]; intros l' a; [reflexivity|]. cbn [app fold_res].
  destruct (f a x); [|reflexivity]. cbn [bind]. apply IH.
Qed.
Lemma fold_res_concat : forall {T U V} (f : T -> U -> res T) (e : V -> list U) l a,
  fold_res (fun a x => fold_res f a (e x)) a l = fold_res f a (List.concat (map e l)).
Proof.
  intros T U V f e. induction l as [|x l IH]; intros a; [reflexivity|]. cbn [map List.concat fold_res].
  rewrite fold_res_app. destruct (fold_res f a (e x)); [|reflexivity]. cbn [bind]. apply IH.
Qed.
Lemma variable_list_all : forall l, variable_list true l = l.
Proof.
  induction l as [|d l IH]; [reflexivity|]. unfold variable_list in *. cbn [List.filter].
  destruct (d_const d), (d_loop d); now rewrite IH.
Qed.

(* All the dummy arguments of the parts of a stage. *)
Definition all_dummies (t : stage) (s : suite) : list dummy :=
  List.concat (map p_dummies (suite_part_list s t)).
Definition every (t : stage) (ss : list suite) : list dummy := List.concat (map (all_dummies t) ss).

Lemma fold_res_ext : forall {T U} (f g : T -> U -> res T) l a, (forall a x, f a x = g a x) ->
  fold_res f a l = fold_res g a l.
Proof.
  intros T U f g l a H. revert a. induction l as [|x l IH]; intros a; [reflexivity|]. cbn. rewrite H.
  destruct (g a x); [|reflexivity]. cbn. apply IH.
Qed.
Lemma host_locals_flat : forall h t ss, host_locals h t ss = fold_res (scan_var h t) [] (every t ss).
Proof.
  intros h t ss. unfold host_locals, every. rewrite <- fold_res_concat. apply fold_res_ext.
  intros a s. unfold all_dummies. rewrite <- fold_res_concat. apply fold_res_ext.
  intros a' p. now rewrite variable_list_all.
Qed.

Definition pair_of (d : dummy) : str * str := (d_std d, d_lname d).

Lemma scan_ok : forall h t ds l l', fold_res (scan_var h t) l ds = Ok l' ->
  NoDup (map fst l) -> NoDup (map snd l) ->
  (forall d, In d ds -> d_type d = prop_t -> t = Reg) /\
  (forall d, In d ds -> d_type d <> prop_t -> lookup_var h (d_std d) <> None) /\
  l' = l ++ map pair_of (List.filter is_prop ds) /\ NoDup (map fst l') /\ NoDup (map snd l').
Proof.
  intros h t. induction ds as [|d ds IH]; intros l l' H N1 N2; cbn [fold_res] in H.
  - injection H as <-. cbn. rewrite app_nil_r. repeat split; auto; intros d [].
  - apply bind_inv in H. destruct H as (l1 & Hd & H). unfold scan_var in Hd. cbn [List.filter].
    unfold is_prop at 1. change prop_t with const_prop_t.
    destruct (str_eqb (d_type d) const_prop_t) eqn:E.
    + destruct t; try discriminate. unfold local_of in Hd.
      destruct (mem (d_std d) (map fst l)) eqn:M1; [discriminate|].
      destruct (mem (d_lname d) (map snd l)) eqn:M2; [discriminate|]. injection Hd as <-.
      apply mem_not in M1. apply mem_not in M2.
      apply IH in H; [|rewrite map_app; now apply NoDup_snoc|rewrite map_app; now apply NoDup_snoc].
      destruct H as (P1 & P2 & -> & Q1 & Q2). cbn [map]. 
      split; [reflexivity|]. split.
      { intros d' [<-|Hin] Hn; [apply str_eqb_eq in E; contradiction|now apply P2]. }
      split; [now rewrite <- app_assoc|]. split; [exact Q1|exact Q2].
    + destruct (lookup_var h (d_std d)) eqn:El; [|discriminate]. injection Hd as <-.
      apply IH in H; [|exact N1|exact N2]. destruct H as (P1 & P2 & -> & Q1 & Q2).
      apply str_eqb_neq in E. split.
      { intros d' [<-|Hin] Hn; [contradiction|now apply P1 in Hin]. }
      split.
      { intros d' [<-|Hin] Hn; [congruence|now apply P2]. }
      split; [reflexivity|]. split; [exact Q1|exact Q2].
Qed.

Lemma scan_total : forall h t ds l,
  (forall d, In d ds -> d_type d = prop_t -> t = Reg) ->
  (forall d, In d ds -> d_type d <> prop_t -> lookup_var h (d_std d) <> None) ->
  NoDup (map fst (l ++ map pair_of (List.filter is_prop ds))) ->
  NoDup (map snd (l ++ map pair_of (List.filter is_prop ds))) ->
  fold_res (scan_var h t) l ds = Ok (l ++ map pair_of (List.filter is_prop ds)).
Proof.
  intros h t. induction ds as [|d ds IH]; intros l P1 P2 N1 N2; [cbn; now rewrite app_nil_r|].
  cbn [fold_res]. cbn [List.filter] in *. unfold scan_var at 1. unfold is_prop at 1 in N1. unfold is_prop at 1 in N2. unfold is_prop at 1.
  change prop_t with const_prop_t in *.
  assert (Q1 : forall d, In d ds -> d_type d = const_prop_t -> t = Reg) by (intros d' Hin; apply P1; now right).
  assert (Q2 : forall d, In d ds -> d_type d <> const_prop_t -> lookup_var h (d_std d) <> None) by (intros d' Hin; apply P2; now right).
  destruct (str_eqb (d_type d) const_prop_t) eqn:E.
  - apply str_eqb_eq in E. rewrite (P1 d (or_introl eq_refl) E). cbn [map] in *.
    assert (M1 : mem (d_std d) (map fst l) = false).
    { apply mem_not. intros Hin. rewrite map_app in N1. apply NoDup_remove_2 in N1. apply N1.
      apply in_or_app. now left. }
    assert (M2 : mem (d_lname d) (map snd l) = false).
    { apply mem_not. intros Hin. rewrite map_app in N2. apply NoDup_remove_2 in N2. apply N2.
      apply in_or_app. now left. }
    unfold local_of. rewrite M1, M2. cbn [bind].
    assert (Ht := P1 d (or_introl eq_refl) E). subst t.
    rewrite IH; [now rewrite <- app_assoc|exact Q1|exact Q2| |]; rewrite <- app_assoc; [exact N1|exact N2].
  - apply str_eqb_neq in E. assert (N := P2 d (or_introl eq_refl) E).
    destruct (lookup_var h (d_std d)); [|contradiction]. cbn [bind]. now apply IH.
Qed.

(* ===== parts ===== *)

Lemma in_all : forall t s d, In d (all_dummies t s) <-> exists name ds, part_of s t name ds /\ In d ds.
Proof.
  intros t s d. unfold all_dummies. rewrite in_concat. split.
  - intros (ds & Hds & Hd). apply in_map_iff in Hds. destruct Hds as (p & <- & Hp).
    destruct t; cbn [suite_part_list] in Hp;
      try (destruct Hp as [<-|[]]; do 2 eexists; split; [split; reflexivity|exact Hd]).
    rewrite run_groups in Hp. apply in_map_iff in Hp. destruct Hp as (g & <- & Hg).
    apply in_own in Hg. do 2 eexists. split; [exists g; destruct Hg; repeat split; eauto|exact Hd].
  - intros (name & ds & Hp & Hd). exists ds. split; [|exact Hd]. apply in_map_iff.
    destruct t; cbn [part_of] in Hp;
      try (destruct Hp as [_ ->]; eexists; split; [|left; reflexivity]; reflexivity).
    destruct Hp as (g & Hg & Hn & _ & ->). exists (mk_part s g). split; [reflexivity|].
    cbn [suite_part_list]. rewrite run_groups. apply in_map. apply in_own. now split.
Qed.
Lemma in_every : forall t ss d, In d (every t ss) <-> exists s name ds, In s ss /\ part_of s t name ds /\ In d ds.
Proof.
  intros t ss d. unfold every. rewrite in_concat. split.
  - intros (l & Hl & Hd). apply in_map_iff in Hl. destruct Hl as (s & <- & Hs). apply in_all in Hd.
    destruct Hd as (name & ds & Hp & Hd). eauto 6.
  - intros (s & name & ds & Hs & Hp & Hd). exists (all_dummies t s). split; [now apply in_map|]. apply in_all. eauto.
Qed.
Lemma reg_every : forall ss, List.filter is_prop (every Reg ss) = List.concat (map runtime ss).
Proof.
  induction ss as [|s ss IH]; [reflexivity|]. unfold every in *. cbn [map List.concat].
  rewrite filter_app, IH. f_equal. unfold all_dummies. cbn [suite_part_list map List.concat]. now rewrite app_nil_r.
Qed.

(* Success of the generation of a stage. *)
Lemma stage_ok : forall h ss t locals, host_locals h t ss = Ok locals ->
  exists lines, stage_lines h ss t = Ok lines.
Proof.
  intros h ss t locals H. unfold stage_lines. rewrite H. cbn [bind].
  rewrite host_locals_flat in H. apply scan_ok in H; [|constructor|constructor].
  destruct H as (_ & P2 & _ & _ & _).
  assert (B : forall s, In s ss -> exists b, suite_body h (map snd locals) t s = Ok b).
  { intros s Hs.
    assert (C : forall name p b dyn, part_of s t name (p_dummies p) -> exists args, suite_part_call_list h p b dyn = Ok args).
    { intros name p b dyn Hp. apply call_args_ok. intros d Hd. apply P2. apply in_every.
      exists s, name, (p_dummies p). split; [exact Hs|]. split; [exact Hp|]. unfold variable_list in Hd. apply filter_In in Hd. tauto. }
    destruct t.
    - unfold suite_body, reg_body. destruct (C (s_name s ++ L "_" ++ stage_name Reg) (phase_group s Reg) false true) as (args & ->); [split; reflexivity|]. eexists; reflexivity.
    - unfold suite_body. destruct (C (s_name s ++ L "_" ++ stage_name Ini) (phase_group s Ini) false false) as (args & ->); [split; reflexivity|]. eexists; reflexivity.
    - unfold suite_body. destruct (C (s_name s ++ L "_" ++ stage_name TIni) (phase_group s TIni) false false) as (args & ->); [split; reflexivity|]. eexists; reflexivity.
    - unfold suite_body, suite_part_list. rewrite run_groups.
      assert (I : forall g, In g (own s) -> exists args, suite_part_call_list h (mk_part s g) true false = Ok args).
      { intros g Hg. apply in_own in Hg. apply (C (s_name s ++ L "_" ++ fst g)). exists g. destruct Hg. repeat split; auto. }
      assert (R : forall els, exists r, run_parts h s els (map (mk_part s) (own s)) = Ok r).
      { clear - I. induction (own s) as [|g l IH]; intros els; [eexists; reflexivity|]. cbn [map run_parts].
        destruct (I g (or_introl eq_refl)) as (args & ->). cbn [bind].
        destruct (IH (fun g' H => I g' (or_intror H)) true) as (r & ->). eexists; reflexivity. }
      destruct (R false) as (r & ->). eexists; reflexivity.
    - unfold suite_body. destruct (C (s_name s ++ L "_" ++ stage_name TFin) (phase_group s TFin) false false) as (args & ->); [split; reflexivity|]. eexists; reflexivity.
    - unfold suite_body. destruct (C (s_name s ++ L "_" ++ stage_name Fin) (phase_group s Fin) false false) as (args & ->); [split; reflexivity|]. eexists; reflexivity. }
  assert (R : forall els, exists r, suite_chain (suite_body h (map snd locals) t) els ss = Ok r).
  { clear - B. induction ss as [|s ss IH]; intros els; [eexists; reflexivity|]. cbn [suite_chain].
    destruct (B s (or_introl eq_refl)) as (b & ->). cbn [bind].
    destruct (IH (fun s' H => B s' (or_intror H)) true) as (r & ->). eexists; reflexivity. }
  destruct (R false) as (r & ->). eexists; reflexivity.
Qed.

Lemma generated : forall h ss t,
  (exists lines, stage_lines h ss t = Ok lines) <->
  (forall s name ds d, In s ss -> part_of s t name ds -> In d ds -> d_type d = prop_t -> t = Reg) /\
  (forall s name ds d, In s ss -> part_of s t name ds -> In d ds -> d_type d <> prop_t ->
     h_host h (d_std d) <> None \/ h_cons h (d_std d) <> None) /\
  (t = Reg -> NoDup (map d_std (List.concat (map runtime ss))) /\
              NoDup (map d_lname (List.concat (map runtime ss)))).
Proof.
  intros h ss t. split.
  - intros (lines & H). unfold stage_lines in H. apply bind_inv in H. destruct H as (locals & H & _).
    rewrite host_locals_flat in H. apply scan_ok in H; [|constructor|constructor].
    destruct H as (P1 & P2 & E & N1 & N2). split; [|split].
    + intros s name ds d Hs Hp Hd. apply P1. apply in_every. eauto 6.
    + intros s name ds d Hs Hp Hd Ht. assert (N : lookup_var h (d_std d) <> None) by (apply P2; [apply in_every; eauto 6|exact Ht]).
      unfold lookup_var in N. destruct (h_host h (d_std d)); [left; discriminate|now right].
    + intros ->. subst locals. cbn [app] in N1, N2. rewrite reg_every, map_map in N1, N2. now split.
  - intros (P1 & P2 & N). apply (stage_ok h ss t (map pair_of (List.filter is_prop (every t ss)))).
    rewrite host_locals_flat. rewrite scan_total; [reflexivity| | | |].
    + intros d Hd. apply in_every in Hd. destruct Hd as (s & name & ds & Hs & Hp & Hd). eapply P1; eauto.
    + intros d Hd Ht. apply in_every in Hd. destruct Hd as (s & name & ds & Hs & Hp & Hd).
      destruct (P2 s name ds d Hs Hp Hd Ht); unfold lookup_var; destruct (h_host h (d_std d)); congruence.
    + cbn [app]. rewrite map_map. destruct (List.filter is_prop (every t ss)) as [|d l] eqn:E; [constructor|].
      assert (Ht : t = Reg).
      { assert (I : In d (List.filter is_prop (every t ss))) by (rewrite E; now left). apply filter_In in I. destruct I as [I Id].
        apply in_every in I. destruct I as (s & name & ds & Hs & Hp & Hd). apply str_eqb_eq in Id. eapply P1; eauto. }
      subst t. rewrite <- E, reg_every. now apply N.
    + cbn [app]. rewrite map_map. destruct (List.filter is_prop (every t ss)) as [|d l] eqn:E; [constructor|].
      assert (Ht : t = Reg).
      { assert (I : In d (List.filter is_prop (every t ss))) by (rewrite E; now left). apply filter_In in I. destruct I as [I Id].
        apply in_every in I. destruct I as (s & name & ds & Hs & Hp & Hd). apply str_eqb_eq in Id. eapply P1; eauto. }
      subst t. rewrite <- E, reg_every. now apply N.
Qed.

Lemma locals_spec : forall h ss locals, host_locals h Reg ss = Ok locals ->
  map snd locals = map d_lname (List.concat (map runtime ss)) /\ NoDup (map d_lname (List.concat (map runtime ss))).
Proof.
  intros h ss locals H. rewrite host_locals_flat in H. apply scan_ok in H; [|constructor|constructor].
  destruct H as (_ & _ & -> & _ & N2). cbn [app] in *. rewrite reg_every, map_map in *. split; [reflexivity|exact N2].
Qed.

(* ===== packing ===== *)

Section Pack.
Context {A : Type}.

Lemma set_nth_app : forall (a b : list (option A)) x y, set_nth (length a) y (a ++ x :: b) = Some (a ++ y :: b).
Proof.
  intros a b x y. unfold set_nth. rewrite app_length. cbn [length].
  replace (length a <? length a + S (length b)) with true by (symmetry; apply Nat.ltb_lt; lia).
  f_equal. rewrite firstn_app, firstn_all, Nat.sub_diag. cbn [firstn]. rewrite app_nil_r. f_equal. f_equal.
  rewrite skipn_app. rewrite skipn_all2 by lia. replace (S (length a) - length a) with 1 by lia. reflexivity.
Qed.
Lemma pack_app : forall (l : list A) a n,
  pack (length a) l (map Some a ++ List.repeat None (length l + n)) = Some (map Some (a ++ l) ++ List.repeat None n).
Proof.
  induction l as [|x l IH]; intros a n; [cbn; now rewrite app_nil_r|]. cbn [pack length Nat.add List.repeat].
  rewrite <- (map_length (@Some A) a) at 1. rewrite set_nth_app.
  replace (map Some a ++ Some x :: List.repeat None (length l + n))
    with (map Some (a ++ [x]) ++ List.repeat None (length l + n)) by (rewrite map_app, <- app_assoc; reflexivity).
  replace (S (length a)) with (length (a ++ [x])) by (rewrite app_length; cbn; lia).
  rewrite IH. now rewrite <- app_assoc.
Qed.
Lemma upd_same : forall {B} (m : str -> option B) (a : str) v, upd m a v a = v.
Proof. intros. unfold upd. now rewrite str_eqb_refl. Qed.
Lemma upd_other : forall {B} (m : str -> option B) (a b : str) v, b <> a -> upd m a v b = m b.
Proof. intros B m a b v H. unfold upd. now rewrite (proj2 (str_eqb_neq b a) H). Qed.

Lemma total_spec : forall (m : str -> option (list A)) vs ls, Forall2 (fun v l => m v = Some l) vs ls ->
  total m vs = Some (length (List.concat ls)).
Proof.
  intros m vs ls F. induction F as [|v l vs ls E F IH]; [reflexivity|]. cbn [total List.concat].
  now rewrite E, IH, app_length.
Qed.
Lemma total_none : forall (m : str -> option (list A)) vs v, In v vs -> m v = None -> total m vs = None.
Proof.
  intros m. induction vs as [|x vs IH]; intros v [] E.
  - subst x. cbn. now rewrite E.
  - cbn. destruct (m x); [|reflexivity]. now rewrite (IH v H E).
Qed.

Variable w : @callee A.
Variable k : nat.
Notation st := (@state A).

Definition packing (a : str) (vs : list str) : list line :=
  List.concat (map (fun v => [LPack a v; LCount v; LDealloc v]) vs).

Lemma steps_pack : forall a vs ls (s : st) done n,
  NoDup vs -> st_ret s = false -> Forall2 (fun v l => st_loc s v = Some l) vs ls ->
  st_cnt s = length done -> n = length (List.concat ls) ->
  st_mod s a = Some (map Some done ++ List.repeat None n) ->
  exists s', steps w k s (packing a vs) = Some s' /\
    st_err s' = st_err s /\ st_calls s' = st_calls s /\ st_ret s' = false /\ st_out s' = st_out s /\
    st_mod s' a = Some (map Some (done ++ List.concat ls)) /\
    (forall b, b <> a -> st_mod s' b = st_mod s b).
Proof.
  intros a. induction vs as [|v vs IH]; intros ls s done n Hnd Hr F Hc Hn Hm.
  - inversion F; subst. exists s. cbn in *. rewrite app_nil_r in *. repeat split; auto.
  - inversion F as [|? l ? ls' Ev F']; subst. inversion Hnd as [|? ? Hv Hnd']; subst.
    unfold packing. cbn [map List.concat app]. fold (packing a vs).
    cbn [steps]. rewrite Hr. cbn [exec1]. rewrite Ev, Hm, Hc. cbn [List.concat]. rewrite app_length.
    rewrite pack_app. do 4 (cbn [exec1 st_err st_calls st_ret st_loc st_mod st_cnt st_out]; rewrite ?Ev, ?Hr).
    destruct (IH ls' (mkSt (st_err s) (st_calls s) false (upd (st_loc s) v None)
                (upd (st_mod s) a (Some (map Some (done ++ l) ++ List.repeat None (length (List.concat ls')))))
                (length done + length l) (st_out s)) (done ++ l) (length (List.concat ls')))
      as (s' & Hs & H1 & H2 & H3 & H4 & H5 & H6); auto.
    + cbn. clear - Hv F'. induction F' as [|v' l' vs ls' E F IH]; constructor.
      * rewrite upd_other; [exact E|]. intros ->. apply Hv. now left.
      * apply IH. intros N. apply Hv. now right.
    + cbn. rewrite app_length. lia.
    + cbn. now rewrite upd_same.
    + exists s'. cbn [st_err st_calls st_out] in H1, H2, H4. rewrite <- app_assoc in H5.
      split; [exact Hs|]. split; [exact H1|]. split; [exact H2|]. split; [exact H3|]. split; [exact H4|]. split; [exact H5|].
      intros b Hb. rewrite H6 by exact Hb. cbn. now apply upd_other.
Qed.
End Pack.
