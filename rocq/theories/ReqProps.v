(* ReqProps.v: property C12, ccpp_physics_suite_variables. *)
From Verif Require Import PyStr ReqModel ReqSpec ReqProofs.
Open Scope nat_scope.
Open Scope list_scope.

(* C12: when no variable is an input of one group and an output of another (or
   there are no structures), the query returns, without duplicates or unset
   elements, exactly the variables asked for.  Missing for the full statement: the
   remaining suites, for which it is false (refutations below). *)
Theorem C12_exact_partial : forall el vars c f,
  collect el coll_empty vars = Ok c -> well_separated el vars ->
  (no_cross vars \/ (no_structs el vars /\ f_in f || f_out f = true)) ->
  exists l, run_suite c f = Some (map Some l) /\ NoDup l /\ (forall y, In y l <-> answer el vars f y).
Proof.
  intros el vars c f E SEP HC.
  pose proof (collect_spec el vars [] coll_empty (coll_empty_ok el)) as H. rewrite E in H. destruct H as [OK _].
  cbn [app] in OK. exists (filling c f). split; [|split].
  - eapply fills; eauto. eapply size_ok; eauto.
  - eapply filling_nodup; eauto.
  - intros y. rewrite filling_in by eauto. eapply wanted_answer; eauto.
Qed.

(* the query is generated unless a constituent is first set outside the init phase *)
Theorem C12_generated_iff : forall el vars,
  (exists c, collect el coll_empty vars = Ok c) <->
  forall before v after, vars = before ++ v :: after ->
    ~ (v_const v = true /\ v_intent v = Out_ /\ v_init v = false /\ ~ initialised before (v_std v)).
Proof.
  intros el vars. pose proof (collect_spec el vars [] coll_empty (coll_empty_ok el)) as H.
  destruct (collect el coll_empty vars) as [c|e].
  - destruct H as [_ H]. split; [|eauto]. intros _ a v b K. exact (H a v b K).
  - destruct H as (a & v & b & E & B). split; [intros (c & K); discriminate|]. intros K. exfalso. exact (K a v b E B).
Qed.

(* ---- examples ---- *)
Definition n1 := L "air_temperature". Definition n2 := L "surface_pressure".
Definition n3 := L "cloud_fraction". Definition n4 := L "state".
Definition ddt : str -> list str := fun x => if str_eqb x n4 then [L "state_u"; L "state_v"] else [].
Definition nodt : str -> list str := fun _ => [].
Definition vin x := mkVar x In_ false false false.
Definition vio x := mkVar x InOut_ false false false.
Definition vout x := mkVar x Out_ false false false.
Definition q i o e := mkFlags i o e.

Definition ex1 : list cvar := [vin n1; vio n2; vout n3; vin n4; vio n4].
Example C12_ex1 : suite_variables ddt ex1 (q true true true) =
  Ok (Some [Some n2; Some (L "state_u"); Some (L "state_v"); Some n1; Some n3]).
Proof. vm_compute. reflexivity. Qed.
Example C12_ex1_hyps : well_separated ddt ex1 /\ no_cross ex1.
Proof.
  split; [split|].
  - intros x y z Hx Hy. unfold ddt. destruct (str_eqb x n4) eqn:A; [|intros []]. destruct (str_eqb y n4) eqn:B; [|intros _ []].
    apply str_eqb_eq in A, B. congruence.
  - intros x z Hx. unfold ddt. destruct (str_eqb x n4) eqn:A; [|intros []].
    intros [<-|[<-|[]]] K; cbn in K; repeat (destruct K as [K|K]; [vm_compute in K; discriminate|]); exact K.
  - intros x (a & v & b & E & <- & K & _) (w & W & K1 & K2 & _).
    assert (V : In v ex1) by (rewrite E; apply in_or_app; right; now left).
    cbn in V, W. repeat (destruct V as [V|V]; [subst v; try discriminate K|]); try contradiction;
      repeat (destruct W as [W|W]; [subst w; try discriminate K2; vm_compute in K1; discriminate K1|]); contradiction.
Qed.
Example C12_bad_constituent : suite_variables nodt [mkVar n1 Out_ false true false] (q true true false)
  = Raise "CCPPError: constituent variable cannot be initialized".
Proof. reflexivity. Qed.

(* ---- the general statement is false ---- *)
Definition C12_full : Prop := forall el vars c f,
  collect el coll_empty vars = Ok c -> well_separated el vars ->
  exists l, run_suite c f = Some (map Some l) /\ NoDup l /\ (forall y, In y l <-> answer el vars f y).

(* (a) a query for neither inputs nor outputs writes past its zero-size result when
   a variable is an input of one group and an output of another *)
Example C12_neither : suite_variables nodt [vin n1; vout n1] (q false false false) = Ok None.
Proof. vm_compute. reflexivity. Qed.
(* (b) a structure that is an input of one group and an output of another is
   written twice, out of bounds, when structures are not expanded *)
Example C12_struct_twice : suite_variables ddt [vin n4; vout n4] (q true true false) = Ok None.
Proof. vm_compute. reflexivity. Qed.
(* (c) in a query for outputs, such a variable is stored at a position computed
   for the other mode: an element is lost and another left unset *)
Example C12_gap : suite_variables ddt [vin n1; vout n1; vout n4] (q false true true) =
  Ok (Some [Some (L "state_u"); Some n1; None]).
Proof. vm_compute. reflexivity. Qed.
(* (d) the list of whole structures is not written, the list of plain variables is
   written twice *)
Example C12_cross_twice : suite_variables ddt [vin n1; vout n1; vin n4; vout n4; vout n2] (q false true false) = Ok None.
Proof. vm_compute. reflexivity. Qed.
(* (e) a plain variable that is also an element of a structure passed inout *)
Definition ddt2 : str -> list str := fun x => if str_eqb x n4 then [n1] else [].
Example C12_elem_and_leaf : suite_variables ddt2 [vio n4; vin n1] (q true false true) = Ok None.
Proof. vm_compute. reflexivity. Qed.

Lemma C12_sep1 : well_separated ddt [vin n1; vout n1; vin n4; vout n4; vout n2].
Proof.
  split.
  - intros x y z Hx Hy. unfold ddt. destruct (str_eqb x n4) eqn:A; [|intros []]. destruct (str_eqb y n4) eqn:B; [|intros _ []].
    apply str_eqb_eq in A, B. congruence.
  - intros x z Hx. unfold ddt. destruct (str_eqb x n4) eqn:A; [|intros []].
    intros [<-|[<-|[]]] K; cbn in K; repeat (destruct K as [K|K]; [vm_compute in K; discriminate|]); exact K.
Qed.
Theorem C12_full_refuted : ~ C12_full.
Proof.
  intros H. destruct (collect ddt coll_empty [vin n1; vout n1; vin n4; vout n4; vout n2]) as [c|e] eqn:E; [|vm_compute in E; discriminate].
  destruct (H ddt _ c (q false true false) E C12_sep1) as (l & R & _).
  vm_compute in E. injection E as <-. vm_compute in R. discriminate.
Qed.
(* and a query that asks for nothing may fail even without structures *)
Theorem C12_nothing_asked_refuted : ~ (forall vars c, collect nodt coll_empty vars = Ok c ->
  run_suite c (q false false false) = Some []).
Proof.
  intros H. destruct (collect nodt coll_empty [vin n1; vout n1]) as [c|e] eqn:E; [|vm_compute in E; discriminate].
  specialize (H _ c E). vm_compute in E. injection E as <-. vm_compute in H. discriminate.
Qed.

Print Assumptions C12_exact_partial.
Print Assumptions C12_generated_iff.
Print Assumptions C12_full_refuted.
Print Assumptions C12_nothing_asked_refuted.
