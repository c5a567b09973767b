(* Host variables a group cap of ccpp_prebuild needs for a scheme: C140, C141. *)
From Coq Require Import List Ascii String ZArith Bool Lia Arith.
From Verif Require Import PyStr Base CompatModel ActModel ActSpec ActProofs ActProps ActNeed.
Import ListNotations.
Open Scope nat_scope. Open Scope list_scope.

(* ---------------------------------------------------------------- C140 *)
(* For every scheme: the variables added are exactly the ones needed for the
   horizontal range, the bounds of dimensions, blocked storage and the conditions
   that are not there already, each once; every argument has a condition, the ones
   recorded before are kept, and a new one is the translation of the variable's. *)
Theorem C140_requirements_complete : forall define known args run cs add cs',
  (forall a v, In a args -> define a = Some v -> readable pvar pv_active v) ->
  requirements define known args run cs = Ok (add, cs') ->
  NoDup add /\
  (forall n, In n add <-> wanted pvar define pv_local pv_dims pv_active run args n /\ ~ In n known /\ ~ In n args) /\
  (forall a, In a args -> In a (map fst cs')) /\ (forall p, In p cs -> In p cs') /\
  (NoDup (map fst cs) -> NoDup (map fst cs')) /\
  (forall a c, In (a, c) cs' -> ~ In (a, c) cs ->
     In a args /\ exists v, define a = Some v /\ condition_of pvar define pv_local pv_active v c).
Proof. intros. eapply requirements_ok; eauto. Qed.
Print Assumptions C140_requirements_complete.

Definition h1 := mkPV (L "Data(cdata%blk_no)%q(:,:,Mod%ntqv)") [L "horizontal_loop_extent"; L "ccpp_constant_one:vertical_layer_dimension"] (L "index_of_water_vapor > 0").
Definition h2 := mkPV (L "Mod%ntqv") [] (L "T").
Definition h3 := mkPV (L "Mod%levs") [] (L "T").
Definition h4 := mkPV (L "im") [] (L "T").
Definition hdef (n : str) : option pvar :=
  if str_eqb n (L "water_vapor") then Some h1 else if str_eqb n (L "index_of_water_vapor") then Some h2
  else if str_eqb n (L "vertical_layer_dimension") then Some h3 else if str_eqb n (L "horizontal_loop_extent") then Some h4
  else if str_eqb n (L "ccpp_constant_one") then Some h4 else None.
Example C140_example :
  requirements hdef [L "vertical_layer_dimension"] [L "water_vapor"] false [] =
    Ok ([L "ccpp_constant_one"; L "horizontal_loop_extent"; L "ccpp_block_count"; L "horizontal_dimension"; L "index_of_water_vapor"],
        [(L "water_vapor", L "Mod%ntqv > 0")]) /\
  (forall a v, In a [L "water_vapor"] -> hdef a = Some v -> readable pvar pv_active v).
Proof.
  split; [vm_compute; reflexivity|]. intros a v [<-|[]] [= <-]. right. right.
  exists [TName (L "index_of_water_vapor"); TOp (L " "); TOp (L ">"); TOp (L " "); TInt (L "0")]. split; [written_tac|reflexivity].
Qed.

(* ---------------------------------------------------------------- C141 *)
(* When everything needed is defined by the host model, no error is reported. *)
Theorem C141_defined_is_accepted_partial : forall define known args run cs,
  (forall a, In a args -> define a <> None) ->
  (forall a v, In a args -> define a = Some v -> readable pvar pv_active v) ->
  (forall n, wanted pvar define pv_local pv_dims pv_active run args n -> define n <> None) ->
  exists r, requirements define known args run cs = Ok r.
Proof. intros. now apply requirements_total. Qed.
Print Assumptions C141_defined_is_accepted_partial.
Definition hdef2 (n : str) : option pvar :=
  if str_eqb n (L "water_vapor") then Some (mkPV (L "q") [L "5:lm"] (L "flag.or.1==2")) else if str_eqb n (L "lm") then Some h3
  else if str_eqb n (L "flag") then Some h2 else None.
Example C141_example : requirements hdef2 [] [L "water_vapor"] true [] = Ok ([L "lm"; L "flag"], [(L "water_vapor", L "Mod%ntqv.or.1==2")]).
Proof. vm_compute. reflexivity. Qed.

Lemma fold_need_raise {A} (f : list str -> A -> res (list str)) l x : In x l ->
  (forall acc, (exists e, f acc x = Raise e)) -> forall acc, exists e, fold_need f l acc = Raise e.
Proof.
  induction l as [|y l IH]; intros I H acc; [destruct I|]. cbn [fold_need]. destruct I as [->|I].
  - destruct (H acc) as [e ->]. cbn. eauto.
  - destruct (f acc y) as [a|e]; cbn [bind]; [now apply IH|eauto].
Qed.
Lemma args_need_raise define known args run l a : In a l ->
  (forall st, exists e, arg_need define known args run st a = Raise e) -> forall st, exists e, args_need define known args run l st = Raise e.
Proof.
  induction l as [|y l IH]; intros I H st; [destruct I|]. cbn [args_need]. destruct I as [->|I].
  - destruct (H st) as [e ->]. cbn. eauto.
  - destruct (arg_need define known args run st y) as [s|e]; cbn [bind]; [now apply IH|eauto].
Qed.
(* An argument, or a name in its condition, that the host model does not define is
   reported, whatever the schemes before. *)
Theorem C141_undefined_is_reported_partial : forall define known args run cs a,
  In a args ->
  (define a = None \/
   exists v ts n, define a = Some v /\ pv_active v <> L "T" /\ pv_active v <> L "F" /\ written ts /\ pv_active v = text ts /\
     In (TName n) ts /\ define (lower n) = None) ->
  exists e, requirements define known args run cs = Raise e.
Proof.
  intros define known args run cs a I H. unfold requirements. apply args_need_raise with (a := a); auto. intros st. unfold arg_need.
  destruct H as [-> | (v & ts & n & -> & T & F & W & E & J & D)]; [eauto|].
  destruct (dims_need define known args (fst st) (pv_dims v)) as [x|e]; cbn [bind]; [|eauto].
  assert (K : exists e, active_need define known args (block_need known args run x v) v = Raise e).
  { unfold active_need. apply str_eqb_neq in T, F. rewrite T, F, E, items_of_text; auto.
    generalize ((block_need known args run x v, []) : list str * str). apply written_good in W. clear - J D W.
    induction W as [|t ts G _ IH]; [destruct J|]. intros s. cbn [map items_need]. destruct J as [->|J].
    - cbn [text1]. rewrite item_need_name, D; auto. cbn. eauto.
    - destruct (item_need define known args s (text1 t)); cbn [bind]; [now apply IH|eauto]. }
  destruct K as [e ->]. cbn. eauto.
Qed.
Print Assumptions C141_undefined_is_reported_partial.
Example C141_undefined_example : exists e, requirements (fun n => if str_eqb n (L "t") then Some (mkPV (L "t") [] (L "(use_it)")) else None) [] [L "t"] true [] = Raise e.
Proof.
  apply C141_undefined_is_reported_partial with (a := L "t"); [now left|]. right.
  exists (mkPV (L "t") [] (L "(use_it)")), [TOp (L "("); TName (L "use_it"); TOp (L ")")], (L "use_it").
  split; [reflexivity|]. split; [discriminate|]. split; [discriminate|]. split; [written_tac|]. split; [reflexivity|]. split; [cbn; auto|reflexivity].
Qed.

(* The bound of a dimension that is not defined is reported too, unless a scheme
   before needed it or it is an argument itself. *)
Theorem C141_undefined_bound_is_reported_partial : forall define known args run cs a v d b,
  In a args -> define a = Some v -> In d (pv_dims v) -> In b (split_on ":"%char d) -> py_int (lower b) = None ->
  define (lower b) = None -> ~ In (lower b) known -> ~ In (lower b) args ->
  ~ In (lower b) [L "ccpp_constant_one"; L "ccpp_block_count"; L "horizontal_dimension"] ->
  (forall a v, In a args -> define a = Some v -> readable pvar pv_active v) ->
  exists e, requirements define known args run cs = Raise e.
Proof.
  intros define known args run cs a v d b I D Id Ib P N K A X R.
  destruct (requirements define known args run cs) as [[add cs']|e] eqn:E; [exfalso|eauto].
  (* every name added is defined or one of the three *)
  set (ok := fun l : list str => Forall (fun n => define n <> None \/ In n [L "ccpp_constant_one"; L "ccpp_block_count"; L "horizontal_dimension"]) l).
  assert (need_ok : forall acc n, ok acc -> (define n <> None \/ In n [L "ccpp_constant_one"; L "ccpp_block_count"; L "horizontal_dimension"]) -> ok (need known args acc n)).
  { intros acc n O H. unfold need. destruct (mem_str n known); auto. destruct (mem_str n (acc ++ args)); auto. apply Forall_app. split; auto. }
  assert (M : ok (mandatory define known args run)).
  { unfold mandatory. destruct (defined define (L "horizontal_loop_extent")) eqn:D1.
    - apply defined_spec in D1. cbn [fold_left]. apply need_ok; auto. apply need_ok; [constructor|]. right. now left.
    - match goal with |- ok (if ?c then _ else _) => destruct c eqn:B end; [|constructor].
      apply andb_prop in B as [B B4]. apply andb_prop in B as [B B3]. apply andb_prop in B as [_ B2]. apply defined_spec in B2, B3, B4.
      cbn [fold_left]. repeat apply need_ok; auto. constructor. }
  assert (ST : forall l st st', ok (fst st) -> args_need define known args run l st = Ok st' -> ok (fst st')).
  { induction l as [|y l IH]; cbn [args_need]; intros st st' O H; [injection H as <-; auto|].
    apply bind_ok in H as (s & H1 & H2). eapply IH; [|exact H2]. clear H2. unfold arg_need in H1. destruct (define y) as [w|] eqn:Dy; [|discriminate].
    apply bind_ok in H1 as (l1 & H1 & H3). apply bind_ok in H3 as ([l2 c] & H3 & [= <-]). cbn [fst].
    assert (O1 : ok l1).
    { unfold dims_need in H1. revert H1 O. generalize (fst st). generalize (concat (map (split_on ":"%char) (pv_dims w))).
      induction l0 as [|z l0 IH0]; cbn [fold_need]; intros acc H O; [injection H as <-; auto|].
      apply bind_ok in H as (a1 & H & H'). eapply IH0; [exact H'|]. unfold dim_need in H. cbv zeta in H. destruct (py_int (lower z)); [injection H as <-; auto|].
      destruct (mem_str (lower z) known); [injection H as <-; auto|]. destruct (mem_str (lower z) (acc ++ args)); [injection H as <-; auto|].
      destruct (defined define (lower z)) eqn:Dz; [|discriminate]. injection H as <-. apply Forall_app. split; auto. constructor; [left; now apply defined_spec|constructor]. }
    assert (O2 : ok (block_need known args run l1 w)).
    { unfold block_need. match goal with |- ok (if ?c then _ else _) => destruct c end; auto. cbn [fold_left]. repeat apply need_ok; auto; cbn; auto. }
    unfold active_need in H3. destruct (str_eqb (pv_active w) (L "T")); [injection H3 as <- <-; auto|]. destruct (str_eqb (pv_active w) (L "F")); [injection H3 as <- <-; auto|].
    revert H3 O2. generalize (block_need known args run l1 w) at 1 2. generalize ([] : str). generalize (items (pv_active w)).
    induction l0 as [|i l0 IH0]; cbn [items_need]; intros tx acc H O2; [injection H as <- <-; auto|].
    apply bind_ok in H as ([a1 t1] & H & H'). eapply IH0; [exact H'|]. unfold item_need in H. cbv zeta in H. cbn [fst snd] in H.
    destruct (mem_str (lower i) words); [injection H as <- <-; auto|]. destruct (py_int (lower i)); [injection H as <- <-; auto|].
    destruct (define (lower i)) eqn:Di; [|discriminate]. injection H as <- <-. apply need_ok; auto. left. congruence. }
  pose proof (ST args (mandatory define known args run, cs) _ M E) as O. cbn [fst] in O.
  pose proof (C140_requirements_complete _ _ _ _ _ _ _ R E) as (_ & Q & _).
  assert (J : In (lower b) add) by (apply Q; split; [eapply wanted_dim; eauto|auto]).
  eapply Forall_forall in O; [|exact J]. cbv beta in O. destruct O as [O|O]; [congruence|contradiction].
Qed.
Print Assumptions C141_undefined_bound_is_reported_partial.
Example C141_bound_example : exists e, requirements (fun n => if str_eqb n (L "t") then Some (mkPV (L "t") [L "2:nlev"] (L "T")) else None) [] [L "t"] true [] = Raise e.
Proof.
  eapply C141_undefined_bound_is_reported_partial with (a := L "t") (d := L "2:nlev") (b := L "nlev"); try reflexivity; cbn; auto; try (intuition discriminate).
  intros a v [<-|[]] [= <-]. left. reflexivity.
Qed.

(* But the names added without looking at the host model are not checked: with
   blocked storage the cap needs ccpp_block_count and horizontal_dimension, with a
   loop extent ccpp_constant_one, whether or not they exist. *)
Theorem C141_added_names_unchecked_refuted :
  (forall define known args run cs add cs',
     define (L "horizontal_loop_extent") <> None -> define (L "ccpp_constant_one") = None ->
     ~ In (L "ccpp_constant_one") known -> ~ In (L "ccpp_constant_one") args ->
     (forall a v, In a args -> define a = Some v -> readable pvar pv_active v) ->
     requirements define known args run cs = Ok (add, cs') -> In (L "ccpp_constant_one") add) /\
  exists define args r, requirements define [] args false [] = Ok r /\
    In (L "ccpp_block_count") (fst r) /\ define (L "ccpp_block_count") = None.
Proof.
  split.
  - intros define known args run cs add cs' H1 H2 H3 H4 R E.
    apply (C140_requirements_complete _ _ _ _ _ _ _ R) in E as (_ & Q & _). apply Q. split; auto. apply wanted_extent; auto. now left.
  - exists hdef, [L "water_vapor"]. eexists. split; [vm_compute; reflexivity|]. split; [cbn; auto 10|reflexivity].
Qed.
Print Assumptions C141_added_names_unchecked_refuted.
Example C141_unchecked_example :
  requirements (fun n => if str_eqb n (L "horizontal_loop_extent") then Some h4 else if str_eqb n (L "t") then Some h3 else None) [] [L "t"] true [] =
    Ok ([L "ccpp_constant_one"; L "horizontal_loop_extent"], [(L "t", L ".true.")]).
Proof. vm_compute. reflexivity. Qed.

(* The condition as read: a scheme variable may only be always active; the one of a
   host variable is T, F, or keeps its characters, blanks excepted, with single
   blanks between its words. *)
Lemma words_of_ok s : forall cur, Forall (fun c => is_space c = false) cur ->
  concat (words_of cur s) = rev cur ++ List.filter (fun c => negb (is_space c)) s /\
  Forall (fun w => w <> [] /\ Forall (fun c => is_space c = false) w) (words_of cur s).
Proof.
  induction s as [|c s IH]; intros cur F; cbn [words_of List.filter].
  - destruct cur as [|x cur]; [split; [reflexivity|constructor]|]. split; [cbn [concat]; now rewrite !app_nil_r|]. constructor; [|constructor].
    split; [|now apply Forall_rev]. intros E. apply (f_equal (@length ascii)) in E. rewrite rev_length in E. discriminate.
  - destruct (is_space c) eqn:C; cbn [negb].
    + destruct (IH [] (Forall_nil _)) as [I1 I2]. destruct cur as [|x cur]; [auto|]. split; [cbn [concat]; now rewrite I1|]. constructor; auto.
      split; [|now apply Forall_rev]. intros E. apply (f_equal (@length ascii)) in E. rewrite rev_length in E. discriminate.
    + destruct (IH (c :: cur)) as [I1 I2]; [now constructor|]. split; auto. rewrite I1. cbn [rev]. now rewrite <- app_assoc.
Qed.
Theorem C140_condition_as_read :
  (forall a x, pre_active true a = Ok x <-> lower a = L ".true." /\ x = L "T") /\
  (forall a x, pre_active false a = Ok x -> 
     (x = L "T" /\ lower a = L ".true.") \/ (x = L "F" /\ lower a = L ".false.") \/
     exists ws, x = join (L " ") ws /\ Forall (fun w => w <> [] /\ Forall (fun c => is_space c = false) w) ws /\
                concat ws = List.filter (fun c => negb (is_space c)) a).
Proof.
  split.
  - intros a x. unfold pre_active. destruct a as [|c a]; [split; [discriminate|intros [H _]; discriminate]|].
    destruct (str_eqb (lower (c :: a)) (L ".true.")) eqn:E; cbn [andb negb].
    + apply str_eqb_eq in E. split; [intros [= <-]; auto|]. intros [_ ->]. reflexivity.
    + apply str_eqb_neq in E. split; [discriminate|]. intros [H _]. contradiction.
  - intros a x. unfold pre_active. destruct a as [|c a]; [discriminate|]. cbn [andb].
    destruct (str_eqb (lower (c :: a)) (L ".true.")) eqn:E; [apply str_eqb_eq in E; intros [= <-]; auto|].
    destruct (str_eqb (lower (c :: a)) (L ".false.")) eqn:E2; [apply str_eqb_eq in E2; intros [= <-]; auto|].
    intros [= <-]. right. right. exists (words_of [] (c :: a)). destruct (words_of_ok (c :: a) [] (Forall_nil _)) as [H1 H2]. auto.
Qed.
Print Assumptions C140_condition_as_read.
Example C140_as_read_example : pre_active false (L " (a   > 3)") = Ok (L "(a > 3)") /\ pre_active true (L ".TRUE.") = Ok (L "T").
Proof. split; vm_compute; reflexivity. Qed.
