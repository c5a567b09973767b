(* NmProofs.v: the metadata of ccpp_prebuild. *)
From Coq Require Import List Ascii String ZArith Bool Lia.
From Verif Require Import PyStr Base ReqModel ReqProofs CommonModel ParModel ParProofs ActModel ArModel ArProofs NmModel NmSpec.
Import ListNotations.
Open Scope nat_scope. Open Scope list_scope.

Lemma words_space c t ws : is_space c = true -> words_in t ws -> words_in (c :: t) ws.
Proof.
  intros C W. inversion W as [s A|b w s l A N B E W']; subst.
  - constructor. intros d [<-|I]; auto.
  - change (c :: b ++ w ++ s) with ((c :: b) ++ w ++ s). constructor; auto. intros d [<-|I]; auto.
Qed.
Lemma words_of_in s : forall cur, (forall c, In c cur -> is_space c = false) -> words_in (rev cur ++ s) (words_of cur s).
Proof.
  induction s as [|c t IH]; intros cur H; cbn [words_of].
  - destruct cur as [|x q]; [constructor; intros c []|]. apply (W_word [] (rev (x :: q)) [] []).
    + intros c [].
    + intros X. apply (f_equal (@rev ascii)) in X. rewrite rev_involutive in X. discriminate.
    + intros c I. apply H. now apply in_rev.
    + now left.
    + constructor. intros c [].
  - destruct (is_space c) eqn:C.
    + assert (T : words_in t (words_of [] t)) by (apply (IH []); intros d []). destruct cur as [|x q]; [now apply words_space|].
      apply (W_word [] (rev (x :: q)) (c :: t)).
      * intros d [].
      * intros X. apply (f_equal (@rev ascii)) in X. rewrite rev_involutive in X. discriminate.
      * intros d I. apply H. now apply in_rev.
      * right. eauto.
      * now apply words_space.
    + assert (E : rev cur ++ c :: t = rev (c :: cur) ++ t) by (cbn [rev]; now rewrite <- app_assoc). rewrite E.
      apply IH. intros d [<-|I]; auto.
Qed.
Lemma endswith_ends e s : endswith e s = true <-> ends e s.
Proof.
  unfold endswith, ends. rewrite starts_p. split; intros (r & E).
  - exists (rev r). apply (f_equal (@rev ascii)) in E. rewrite rev_involutive, rev_app_distr, rev_involutive in E. exact E.
  - exists (rev r). rewrite E. apply rev_app_distr.
Qed.
Lemma pre_active_iff scheme a : (exists t, pre_active scheme a = Ok t) <-> a <> [] /\ (scheme = true -> lower a = L ".true.").
Proof.
  unfold pre_active. destruct a as [|c a]; [split; [intros (t & H); discriminate|intros [H _]; congruence]|]. cbv iota.
  destruct scheme.
  - cbn [andb]. destruct (str_eqb (lower (c :: a)) (L ".true.")) eqn:E; cbn [negb].
    + apply str_eqb_eq in E. split; [intros _; split; [discriminate|auto]|intros _; eauto].
    + apply str_eqb_neq in E. split; [intros (t & H); discriminate|intros [_ H]; elim E; auto].
  - cbn [andb]. split; [intros _; split; [discriminate|discriminate]|]. intros _.
    destruct (str_eqb (lower (c :: a)) (L ".true.")); [eauto|]. destruct (str_eqb (lower (c :: a)) (L ".false.")); eauto.
Qed.
Lemma pre_active_activity scheme a t : pre_active scheme a = Ok t -> a <> [] /\ activity a t.
Proof.
  intros H. assert (N : a <> []) by (intros ->; discriminate). split; [exact N|]. unfold pre_active in H. destruct a as [|c a]; [congruence|]. cbv iota in H.
  destruct (scheme && negb (str_eqb (lower (c :: a)) (L ".true.")))%bool; [discriminate|].
  destruct (str_eqb (lower (c :: a)) (L ".true.")) eqn:E1; [apply str_eqb_eq in E1; apply Ok_inj in H; subst t; now constructor|].
  destruct (str_eqb (lower (c :: a)) (L ".false.")) eqn:E2; [apply str_eqb_eq in E2; apply Ok_inj in H; subst t; now constructor|].
  apply str_eqb_neq in E1. apply str_eqb_neq in E2. apply Ok_inj in H. subst t. constructor; auto. apply (words_of_in (c :: a) []). intros d [].
Qed.
Lemma ends_or e1 e2 s : (endswith e1 s || endswith e2 s)%bool = true <-> ends e1 s \/ ends e2 s.
Proof. rewrite orb_true_iff, !endswith_ends. reflexivity. Qed.
Lemma name_iff (scheme : bool) table std : wrong_name scheme table std = false <->
  (scheme = true -> (ends (L "_init") table \/ ends (L "_finalize") table) -> std <> L "horizontal_loop_extent") /\ (scheme = true -> ends (L "_run") table -> std <> L "horizontal_dimension").
Proof.
  unfold wrong_name. rewrite <- ends_or, <- endswith_ends.
  destruct scheme; [|rewrite !andb_false_r; split; [intros _; split; discriminate|reflexivity]]. rewrite !andb_true_r.
  destruct (endswith (L "_init") table || endswith (L "_finalize") table)%bool eqn:EI; destruct (endswith (L "_run") table) eqn:ER; rewrite ?andb_true_r, ?andb_false_r;
    destruct (str_eqb std (L "horizontal_loop_extent")) eqn:E1; destruct (str_eqb std (L "horizontal_dimension")) eqn:E2; cbn iota;
    try (assert (std = L "horizontal_loop_extent") by now apply str_eqb_eq); try (assert (std <> L "horizontal_loop_extent") by now apply str_eqb_neq);
    try (assert (std = L "horizontal_dimension") by now apply str_eqb_eq); try (assert (std <> L "horizontal_dimension") by now apply str_eqb_neq);
    (split; [intros X; first [discriminate X|split; intros _ Y; first [discriminate Y|assumption]]|intros [X Y]; first [reflexivity|exfalso; first [now apply X|now apply Y]]]).
Qed.
Lemma dims_iff (scheme : bool) table dims : wrong_dims scheme table dims = false <->
  (scheme = true -> (ends (L "_init") table \/ ends (L "_finalize") table) -> ~ In (L "horizontal_loop_extent") dims) /\
  (scheme = true -> ends (L "_run") table -> ~ In (L "horizontal_dimension") dims) /\ (scheme = false -> ~ In (L "horizontal_dimension") dims).
Proof.
  unfold wrong_dims. rewrite <- ends_or, <- endswith_ends, <- !mem_not.
  destruct scheme; cbn [andb negb].
  - destruct (endswith (L "_init") table || endswith (L "_finalize") table)%bool; destruct (endswith (L "_run") table); destruct (mem (L "horizontal_loop_extent") dims); destruct (mem (L "horizontal_dimension") dims); cbn [andb];
      (split; [intros X; first [discriminate|split; [intros _ Y; first [discriminate|reflexivity]|split; [intros _ Y; first [discriminate|reflexivity]|discriminate]]]|intros (X & Y & _); first [reflexivity|symmetry; now apply X|symmetry; now apply Y|now apply X|now apply Y]]).
  - split; [intros X; split; [discriminate|split; [discriminate|auto]]|intros (_ & _ & X); auto].
Qed.
Lemma convert_iff scheme table c r : (exists v, convert_var scheme table c r = Ok v) <-> acceptable scheme table r.
Proof.
  unfold convert_var, acceptable. split.
  - intros (v & H). destruct (wrong_name scheme table (r_std r)) eqn:N; [discriminate|]. destruct (wrong_dims scheme table (r_dims r)) eqn:D; [discriminate|].
    apply name_iff in N as [N1 N2]. apply dims_iff in D as (D1 & D2 & D3). apply bind_inv in H as (a & A & H). apply bind_inv in H as (o & O & _).
    repeat split; auto.
    + destruct (r_active r) as [t|]; [|discriminate]. exists t. split; [reflexivity|]. apply (pre_active_iff scheme). destruct (pre_active scheme t); [eauto|discriminate].
    + destruct (r_optional r) as [[|]|]; [| |discriminate].
      * destruct scheme; [|discriminate]. exists true. split; [reflexivity|discriminate].
      * exists false. auto.
  - intros (X1 & X2 & X3 & (a & A & NA & LA) & (o & O & HO)).
    assert (N : wrong_name scheme table (r_std r) = false) by (apply name_iff; split; [intros P Q; now apply X1|intros P Q; now apply X2]).
    assert (D : wrong_dims scheme table (r_dims r) = false) by (apply dims_iff; split; [intros P Q; now apply X1|split; [intros P Q; now apply X2|exact X3]]).
    rewrite N, D, A. destruct (proj2 (pre_active_iff scheme a) (conj NA LA)) as (t & ->). cbn [bind]. rewrite O. destruct o; [|cbn [bind]; eauto].
    destruct scheme; [cbn [bind]; eauto|]. discriminate (HO eq_refl).
Qed.
Lemma convert_describes scheme table c r v : convert_var scheme table c r = Ok v -> describes c r v /\ pv_std (pre_var v) = r_std r.
Proof.
  unfold convert_var. intros H. destruct (wrong_name scheme table (r_std r)); [discriminate|]. destruct (wrong_dims scheme table (r_dims r)); [discriminate|].
  apply bind_inv in H as (a & A & H). apply bind_inv in H as (o & O & H). apply Ok_inj in H. subst v. split; [|reflexivity].
  split; try reflexivity; cbn.
  - destruct (r_ddt r); split; intros; try discriminate; reflexivity.
  - destruct (r_active r) as [t|]; [|discriminate]. exists t. split; [reflexivity|]. destruct (pre_active scheme t) eqn:P; [|discriminate]. apply Ok_inj in A. subst. now apply pre_active_activity in P.
  - destruct (r_optional r) as [[|]|]; [| |discriminate].
    + destruct scheme; [|discriminate]. apply Ok_inj in O. subst o. left. auto.
    + apply Ok_inj in O. subst o. right. auto.
Qed.

(* ---- tables ---- *)
Lemma add_vars_inv scheme table c l : forall md md', add_vars scheme table c l md = Ok md' ->
  exists new, md' = md ++ new /\ Forall2 (entry c) l new /\ Forall (acceptable scheme table) l /\ (NoDup (map fst md) -> NoDup (map fst md')).
Proof.
  induction l as [|r l IH]; intros md md' H; cbn in H.
  - apply Ok_inj in H. subst md'. exists []. rewrite app_nil_r. repeat split; [constructor|constructor|auto].
  - apply bind_inv in H as (v & V & H). destruct (mem (r_std r) (map fst md)) eqn:M; [discriminate|]. apply mem_not in M.
    apply IH in H as (new & -> & F & A & N). exists ((r_std r, v) :: new). rewrite <- app_assoc. repeat split; auto.
    + constructor; [|exact F]. split; [reflexivity|]. now apply convert_describes in V.
    + constructor; [|exact A]. apply convert_iff with (c := c). eauto.
    + intros ND. rewrite <- app_assoc in N. apply N. rewrite map_app. cbn [map fst]. now apply NoDup_snoc.
Qed.
Lemma add_vars_ok scheme table c l : forall md, Forall (acceptable scheme table) l -> NoDup (map fst md ++ map r_std l) ->
  exists new, add_vars scheme table c l md = Ok (md ++ new) /\ map fst new = map r_std l.
Proof.
  induction l as [|r l IH]; intros md A N.
  - exists []. cbn. now rewrite app_nil_r.
  - inversion A as [|? ? A1 A2]; subst. cbn [add_vars]. apply (convert_iff scheme table c) in A1 as (v & ->). cbn [bind].
    cbn [map] in N. assert (M : mem (r_std r) (map fst md) = false).
    { apply mem_not. intros I. apply NoDup_remove_2 in N. apply N, in_or_app. now left. }
    rewrite M. destruct (IH (md ++ [(r_std r, v)]) A2) as (new & E & F).
    { rewrite map_app. cbn [map fst]. rewrite <- app_assoc. exact N. }
    exists ((r_std r, v) :: new). rewrite E, <- app_assoc. split; [reflexivity|]. cbn [map fst]. now rewrite F.
Qed.
Lemma container_located module scheme table c : container_of module scheme table table = Ok c -> located module table scheme c.
Proof.
  unfold container_of. destruct scheme; [intros H; apply Ok_inj in H; subst; constructor|].
  destruct (str_eqb table module) eqn:E; intros H; apply Ok_inj in H; subst c; [apply str_eqb_eq in E; now constructor|apply str_eqb_neq in E; now constructor].
Qed.
Lemma container_same module scheme table : exists c, container_of module scheme table table = Ok c.
Proof. unfold container_of. destruct scheme; [cbn; eauto|]. destruct (str_eqb table module); cbn; eauto. Qed.
Lemma joined_below path x : path <> [] -> below path x (joined path x).
Proof.
  intros N. unfold joined. destruct (startswith (L "/") x) eqn:E.
  - apply starts_p in E as (r & ->). now apply (B_abs _ _ r).
  - assert (NX : forall y, x <> L "/" ++ y) by (intros y ->; rewrite (proj2 (starts_p _ _)) in E by eauto; discriminate).
    destruct (endswith (L "/") path) eqn:F.
    + apply endswith_ends in F as (q & ->). rewrite <- app_assoc. now apply B_slash.
    + apply B_add; auto. intros q ->. rewrite (proj2 (endswith_ends _ _)) in F by (now exists q). discriminate.
Qed.
Lemma deps_below h : Forall2 (below (h_path h)) (h_deps h) (header_deps h).
Proof.
  unfold header_deps. assert (K : forall f l, (forall x, below (h_path h) x (f x)) -> Forall2 (below (h_path h)) l (map f l)).
  { induction l; cbn; constructor; auto. }
  destruct (h_path h) as [|c p] eqn:E.
  - rewrite <- (map_id (h_deps h)) at 2. apply K. intros x. now constructor.
  - apply K. intros x. apply joined_below. discriminate.
Qed.

Definition is_scheme (o : option str) : bool := match o with Some _ => true | None => false end.
Lemma add_sections_inv module scheme table c h : container_of module scheme table table = Ok c -> forall l md d md' d',
  add_sections module scheme table h l (md, d) = Ok (md', d') ->
  exists vars new ds, of_table table l vars /\ md' = md ++ new /\ Forall2 (entry c) vars new /\ Forall (acceptable (is_scheme scheme) table) vars /\
    (NoDup (map fst md) -> NoDup (map fst md')) /\ d' = d ++ ds /\ needed table (map (fun s => (h, s)) l) ds.
Proof.
  intros C. induction l as [|s l IH]; intros md d md' d' H; cbn [add_sections] in H.
  - apply Ok_inj in H. apply pair_equal_spec in H as [-> ->]. exists [], [], []. rewrite !app_nil_r. repeat split; auto; constructor.
  - destruct (str_eqb (s_title s) table) eqn:E; cbn [negb] in H.
    + apply str_eqb_eq in E. rewrite E, C in H. cbn [bind fst snd] in H. apply bind_inv in H as (md1 & A & H).
      apply add_vars_inv in A as (new1 & -> & F1 & A1 & N1). apply IH in H as (vars & new & ds & T & -> & F & A & N & -> & D).
      exists (s_vars s ++ vars), (new1 ++ new), (header_deps h ++ ds). rewrite !app_assoc. split; [now constructor|]. split; [reflexivity|].
      split; [now apply Forall2_app|]. split; [now apply Forall_app|]. split; [auto|]. split; [reflexivity|]. cbn [map]. apply N_take; auto. apply deps_below.
    + apply str_eqb_neq in E. apply IH in H as (vars & new & ds & T & -> & F & A & N & -> & D). exists vars, new, ds.
      split; [now constructor|]. split; [reflexivity|]. repeat split; auto. cbn [map]. now constructor.
Qed.
Lemma of_table_app table a : forall b va vb, of_table table a va -> of_table table b vb -> of_table table (a ++ b) (va ++ vb).
Proof.
  intros b va vb H. induction H; intros K; cbn [app]; [exact K|apply T_skip; auto|]. rewrite <- app_assoc. apply T_take; auto.
Qed.
Lemma of_table_split table a : forall b v, of_table table (a ++ b) v -> exists va vb, v = va ++ vb /\ of_table table a va /\ of_table table b vb.
Proof.
  induction a as [|s a IH]; intros b v H; cbn [app] in H; [exists [], v; repeat split; auto; constructor|].
  inversion H as [|? ? ? T K|? ? ? T K]; subst.
  - apply IH in K as (va & vb & -> & X & Y). exists va, vb. repeat split; auto. now constructor.
  - apply IH in K as (va & vb & -> & X & Y). exists (s_vars s ++ va), vb. rewrite app_assoc. repeat split; auto. now constructor.
Qed.
Lemma needed_app table a : forall b va vb, needed table a va -> needed table b vb -> needed table (a ++ b) (va ++ vb).
Proof.
  intros b va vb H. induction H; intros K; cbn [app]; [exact K|apply N_skip; auto|]. rewrite <- app_assoc. apply N_take; auto.
Qed.
Lemma read_headers_inv module scheme table c : container_of module scheme table table = Ok c -> forall hs md d md' d',
  read_headers module scheme table hs (md, d) = Ok (md', d') ->
  exists vars new ds, of_table table (all_sections hs) vars /\ md' = md ++ new /\ Forall2 (entry c) vars new /\ Forall (acceptable (is_scheme scheme) table) vars /\
    (NoDup (map fst md) -> NoDup (map fst md')) /\ d' = d ++ ds /\ needed table (List.concat (map sections_of hs)) ds.
Proof.
  intros C. induction hs as [|h hs IH]; intros md d md' d' H; cbn [read_headers] in H.
  - apply Ok_inj in H. apply pair_equal_spec in H as [-> ->]. exists [], [], []. rewrite !app_nil_r. repeat split; auto; constructor.
  - apply bind_inv in H as ([md1 d1] & A & H). apply (add_sections_inv _ _ _ c) in A as (v1 & n1 & ds1 & T1 & -> & F1 & A1 & N1 & -> & D1); [|exact C].
    apply IH in H as (v2 & n2 & ds2 & T2 & -> & F2 & A2 & N2 & -> & D2). exists (v1 ++ v2), (n1 ++ n2), (ds1 ++ ds2). rewrite !app_assoc.
    split; [unfold all_sections; cbn [map List.concat]; now apply of_table_app|]. split; [reflexivity|]. split; [now apply Forall2_app|]. split; [now apply Forall_app|].
    split; [auto|]. split; [reflexivity|]. cbn [map List.concat]. now apply needed_app.
Qed.
Lemma add_sections_ok module scheme table c h : container_of module scheme table table = Ok c -> forall l vars md d,
  of_table table l vars -> Forall (acceptable (is_scheme scheme) table) vars -> NoDup (map fst md ++ map r_std vars) ->
  exists new d', add_sections module scheme table h l (md, d) = Ok (md ++ new, d') /\ map fst new = map r_std vars.
Proof.
  intros C. induction l as [|s l IH]; intros vars md d T A N; cbn [add_sections].
  - inversion T; subst. exists [], d. now rewrite app_nil_r.
  - inversion T as [|? ? ? X K|? ? ? X K]; subst.
    + assert (E : str_eqb (s_title s) table = false) by now apply str_eqb_neq. rewrite E. cbn [negb]. now apply IH.
    + rewrite str_eqb_refl. cbn [negb]. rewrite C. cbn [bind fst snd]. apply Forall_app in A as [A1 A2]. rewrite map_app in N.
      destruct (add_vars_ok (is_scheme scheme) (s_title s) c (s_vars s) md A1) as (n1 & E1 & M1).
      { rewrite app_assoc in N. clear - N. revert N. generalize (map fst md ++ map r_std (s_vars s)) as x. generalize (map r_std r) as y. induction x; cbn; [constructor|].
        intros N. inversion N as [|? ? P Q]; subst. constructor; [|now apply IHx]. intros I. apply P, in_or_app. now left. }
      unfold is_scheme in E1. rewrite E1. cbn [bind]. destruct (IH r (md ++ n1) (d ++ header_deps h) K A2) as (n2 & d' & E2 & M2).
      { rewrite map_app, M1, <- app_assoc. exact N. }
      exists (n1 ++ n2), d'. rewrite E2, app_assoc. split; [reflexivity|]. rewrite !map_app. now rewrite M1, M2.
Qed.
Lemma NoDup_front {A} (x y : list A) : NoDup (x ++ y) -> NoDup x.
Proof. induction x; cbn; [constructor|]. intros N. inversion N as [|? ? P Q]; subst. constructor; [|auto]. intros I. apply P, in_or_app. now left. Qed.
Lemma read_headers_ok module scheme table c : container_of module scheme table table = Ok c -> forall hs vars md d,
  of_table table (all_sections hs) vars -> Forall (acceptable (is_scheme scheme) table) vars -> NoDup (map fst md ++ map r_std vars) ->
  exists st, read_headers module scheme table hs (md, d) = Ok st.
Proof.
  intros C. induction hs as [|h hs IH]; intros vars md d T A N; cbn [read_headers]; [eauto|].
  unfold all_sections in T. cbn [map List.concat] in T. apply of_table_split in T as (v1 & v2 & -> & T1 & T2). apply Forall_app in A as [A1 A2].
  rewrite map_app in N. destruct (add_sections_ok module scheme table c h C (h_sections h) v1 md d T1 A1) as (n1 & d1 & E1 & M1); [rewrite app_assoc in N; now apply NoDup_front in N|].
  rewrite E1. cbn [bind]. apply (IH v2); auto. rewrite map_app, M1, <- app_assoc. exact N.
Qed.
Lemma of_table_fun table l v : of_table table l v -> forall w, of_table table l w -> w = v.
Proof. induction 1; intros w K; inversion K; subst; auto; try congruence; try (f_equal; auto). Qed.
Lemma of_table_some table l : exists v, of_table table l v.
Proof.
  induction l as [|s l (v & H)]; [exists []; constructor|]. destruct (str_eqb (s_title s) table) eqn:E.
  - apply str_eqb_eq in E. eexists. now constructor 3; [|exact H].
  - apply str_eqb_neq in E. eexists. now constructor 2; [|exact H].
Qed.
