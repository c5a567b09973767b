(* C149-C152: arguments, declarations and imports of the caps of ccpp_prebuild. *)
From Coq Require Import List Ascii String ZArith Bool Lia Permutation.
From Verif Require Import PyStr PyNum SelModel SelProofs ParModel ParProofs ParGroup ArModel ArSpec ArProofs.
Import ListNotations.
Open Scope nat_scope. Open Scope list_scope.

(* a host: kind_phys and a type in modules, bounds lo and n, an optional array *)
Definition ex_kind := mkPV (L "kind_phys") (L "kind_phys") (L "integer") [] [] (L "in") (L "T") [] (L "MODULE_machine").
Definition ex_ddt := mkPV (L "grid_t") (L "grid_t") (L "grid_t") [] [] (L "in") (L "T") [] (L "MODULE_grid_def TYPE_grid_t").
Definition ex_lo := mkPV (L "lower_level") (L "lo") (L "integer") [] [] (L "in") (L "T") [] (L "MODULE_host").
Definition ex_n := mkPV (L "vertical_dimension") (L "nlev") (L "integer") [] [] (L "in") (L "T") [] (L "MODULE_host").
Definition ex_t := mkPV (L "temperature") (L "t") (L "real") (L "kind_phys") [L "lower_level:Vertical_dimension"; L "3"] (L "inout") (L "T") [] (L "MODULE_host").
Definition ex_q := mkPV (L "humidity") (L "q") (L "real") (L "kind_phys") [L "1:vertical_dimension"] (L "in") (L "flag") [] (L "MODULE_host").
Definition ex_g := mkPV (L "grid") (L "g") (L "grid_t") [] [] (L "in") (L "T") [] (L "MODULE_host").
Definition ex_msg := mkPV (L "message") (L "msg") (L "character") (L "len=512") [] (L "out") (L "T") [] (L "MODULE_host").
Definition ex_defs : pdefs := map (fun v => (pv_std v, v)) [ex_kind; ex_ddt; ex_lo; ex_n; ex_t; ex_q; ex_g; ex_msg].
Definition ex_vars := [ex_t; ex_lo; ex_g; ex_q; ex_msg; ex_n].

(* C149: the argument list of a cap and its declarations agree: the variables, the
   scalars first, each once, each with its declaration at the same place *)
Theorem C149_each_argument_declared defs vars c : cap_texts defs vars [] [] = Ok c ->
  exists order scalars arrays,
    Permutation vars order /\ order = scalars ++ arrays /\
    Forall (fun v => pv_dims v = []) scalars /\ Forall (fun v => pv_dims v <> []) arrays /\
    c_args c = map pv_local order /\ Forall2 (declares defs) order (c_defs c).
Proof.
  unfold cap_texts. intros H. apply bind_inv in H as (c' & H & E). injection E as <-. rewrite args_part_fold in H.
  apply args_inv in H as (A & (ds & D & F) & _). cbn in A, D. exists (ordered vars), (List.filter is_scalar vars), (List.filter (fun v => negb (is_scalar v)) vars).
  split; [apply ordered_perm|]. split; [reflexivity|]. split.
  { apply Forall_forall. intros v I. apply filter_In in I as [_ I]. unfold is_scalar in I. now destruct (pv_dims v). }
  split.
  { apply Forall_forall. intros v I. apply filter_In in I as [_ I]. unfold is_scalar in I. now destruct (pv_dims v). }
  split; [exact A|]. rewrite D. clear - F. induction F as [|v d l m E _ IH]; constructor; auto. now apply def_intent_iff in E.
Qed.
Print Assumptions C149_each_argument_declared.
Example C149_example : cap_texts ex_defs ex_vars [] [] = Ok (mkC
  [L "lo"; L "g"; L "msg"; L "nlev"; L "t"; L "q"]
  [L "use grid_def, only: grid_t"; L "use machine, only: kind_phys"]
  [L "integer, intent(in), target :: lo"; L "type(grid_t), intent(in), target :: g";
   L "character(len=512), intent(out), target :: msg"; L "integer, intent(in), target :: nlev";
   L "real(kind_phys), intent(inout), target :: t(lo:,1:)"; L "real(kind_phys), intent(in), optional, target :: q(1:)"]
  [L "grid_t"; L "kind_phys"]).
Proof. vm_compute. reflexivity. Qed.

(* the caps can be written exactly if every variable can be declared and every kind
   and type it needs is defined by the host in some module *)
Theorem C149_written_iff defs vars : (exists c, cap_texts defs vars [] [] = Ok c) <->
  Forall (fun v => pv_optional v <> L "T" /\ exists d, declares defs v d) vars /\
  forall v n, In v vars -> requires v n -> exists k m, assoc defs n = Some k /\ module_use k = Ok m.
Proof.
  unfold cap_texts. split.
  - intros [c H]. apply bind_inv in H as (c' & H & _). rewrite args_part_fold in H. apply args_inv in H as (_ & (ds & D & F) & U).
    split.
    + apply Forall_forall. intros v I. apply (Permutation_in v (ordered_perm vars)) in I.
      clear - F I. induction F as [|w d l m E _ IH]; [destruct I|]. destruct I as [->|I]; auto.
      apply def_intent_iff in E as [O E]. split; [exact O|eauto].
    + intros v n I R. apply uses_inv in U as (ns & ms & E1 & E2 & G & _ & K). cbn in *.
      assert (X : In n ns). { rewrite <- E1. apply K. right. apply needs_iff in R. rewrite <- R. apply in_map. now apply (Permutation_in v (ordered_perm vars)). }
      clear - G X. induction G as [|x m l ms (kv & A & U) _ IH]; [destruct X|]. destruct X as [->|X]; [exists kv, m; auto|auto].
  - intros [F R].
    assert (X : exists c', fold_r (one_arg defs) (ordered vars) (mkC [] [] [] []) = Ok c').
    { apply args_ok.
      - apply Forall_forall. intros v I. apply (Permutation_in v (Permutation_sym (ordered_perm vars))) in I.
        rewrite Forall_forall in F. destruct (F v I) as [O [d D]]. exists d. now apply def_intent_iff.
      - apply uses_ok. intros n I. right. apply in_map_iff in I as (v & E & I).
        apply (Permutation_in v (Permutation_sym (ordered_perm vars))) in I. apply needs_iff in E.
        destruct (R v n I E) as (k & m & A & U). exists m, k. auto. }
    destruct X as [c' X]. exists c'. rewrite args_part_fold, X. reflexivity.
Qed.
Print Assumptions C149_written_iff.
Example C149_iff_example : (exists c, cap_texts ex_defs ex_vars [] [] = Ok c) /\
  cap_texts ex_defs [mkPV (L "x") (L "x") (L "real") (L "dp") [] (L "in") (L "T") [] []] [] [] = Raise "Exception: kind or type not defined by host model".
Proof. split; [eexists; vm_compute; reflexivity|vm_compute; reflexivity]. Qed.

(* C150: a bound given by a standard name that is a scalar argument of the cap is
   declared before the arrays that use it *)
Theorem C150_scalar_bounds_declared_first defs vars c : cap_texts defs vars [] [] = Ok c ->
  exists order, Permutation vars order /\ c_args c = map pv_local order /\ Forall2 (declares defs) order (c_defs c) /\
  forall j v d b w, nth_error order j = Some v -> In d (pv_dims v) -> In b (split_on ":"%char d) ->
    assoc defs (lower b) = Some w -> (exists u, In u vars /\ pv_dims u = [] /\ pv_local u = pv_local w) ->
    exists i, i < j /\ nth_error (c_args c) i = Some (pv_local w).
Proof.
  intros H. apply C149_each_argument_declared in H as (order & sc & ar & P & E & Fs & Fa & A & F).
  exists order. split; [exact P|]. split; [exact A|]. split; [exact F|].
  intros j v d b w N I _ _ (u & Iu & Du & Lu).
  assert (X : In u sc).
  { apply (Permutation_in u P) in Iu. subst order. apply in_app_or in Iu as [X|X]; [exact X|].
    rewrite Forall_forall in Fa. apply Fa in X. contradiction. }
  apply In_nth_error in X as [i X].
  assert (Li : i < length sc) by (apply nth_error_Some; congruence).
  assert (Lj : length sc <= j).
  { destruct (Nat.lt_ge_cases j (length sc)) as [Q|Q]; [|exact Q]. subst order. rewrite nth_error_app1 in N by exact Q.
    apply nth_error_In in N. rewrite Forall_forall in Fs. apply Fs in N. rewrite N in I. destruct I. }
  exists i. split; [lia|]. rewrite A, E, map_app, nth_error_app1 by now rewrite map_length.
  rewrite nth_error_map, X. cbn. now rewrite Lu.
Qed.
Print Assumptions C150_scalar_bounds_declared_first.
Example C150_example : exists c i, cap_texts ex_defs ex_vars [] [] = Ok c /\ nth_error (c_args c) 4 = Some (L "t") /\
  i < 4 /\ nth_error (c_args c) i = Some (pv_local ex_lo) /\ assoc ex_defs (L "lower_level") = Some ex_lo.
Proof. eexists. exists 0. split; [vm_compute; reflexivity|]. repeat split; try (vm_compute; reflexivity). lia. Qed.

(* but a bound that is a part of an array of the cap is used before that array is
   declared *)
Definition ex_b := mkPV (L "lowest") (L "dom(1)%lo") (L "integer") [] [] (L "in") (L "T") [] (L "MODULE_host").
Definition ex_dom := mkPV (L "domains") (L "dom") (L "grid_t") [] [L "1:vertical_dimension"] (L "in") (L "T") [] (L "MODULE_host").
Definition ex_u := mkPV (L "wind") (L "u") (L "real") [] [L "lowest:vertical_dimension"] (L "in") (L "T") [] (L "MODULE_host").
Theorem C150_component_bounds_refuted : exists defs vars c,
  cap_texts defs vars [] [] = Ok c /\
  c_args c = [L "nlev"; L "u"; L "dom"] /\
  nth_error (c_defs c) 1 = Some (L "real, intent(in), target :: u(dom(1)%lo:)") /\
  nth_error (c_defs c) 2 = Some (L "type(grid_t), intent(in), target :: dom(1:)").
Proof.
  exists (map (fun v => (pv_std v, v)) [ex_ddt; ex_n; ex_b; ex_dom; ex_u]), [ex_u; ex_dom; ex_n]. eexists.
  split; [vm_compute; reflexivity|]. repeat split; vm_compute; reflexivity.
Qed.
Print Assumptions C150_component_bounds_refuted.

(* C151: exactly the kinds and derived types the arguments need are imported, each
   once, each by the local name of the host variable of that standard name *)
Definition import_of (defs : pdefs) (n : str) (m : str) : Prop := exists k, assoc defs n = Some k /\ module_use k = Ok m.
Theorem C151_kinds_and_types_imported_once defs vars c : cap_texts defs vars [] [] = Ok c ->
  exists names, NoDup names /\ Forall2 (import_of defs) names (c_use c) /\
    forall n, In n names <-> exists v, In v vars /\ requires v n.
Proof.
  unfold cap_texts. intros H. apply bind_inv in H as (c' & H & E). injection E as <-. rewrite args_part_fold in H.
  apply args_inv in H as (_ & _ & U). apply uses_inv in U as (ns & ms & E1 & E2 & G & N & K). cbn in *. subst ns.
  exists (c_seen c'). split; [apply N; constructor|]. split; [rewrite E2; exact G|].
  intros n. rewrite K. split.
  - intros [[]|I]. apply in_map_iff in I as (v & E & I). apply needs_iff in E. exists v. split; [|exact E].
    apply (Permutation_in v (Permutation_sym (ordered_perm vars)) I).
  - intros (v & I & R). right. apply needs_iff in R. rewrite <- R. apply in_map. apply (Permutation_in v (ordered_perm vars) I).
Qed.
Print Assumptions C151_kinds_and_types_imported_once.
Example C151_example : requires ex_t (L "kind_phys") /\ requires ex_g (L "grid_t") /\ (forall n, ~ requires ex_msg n) /\
  exists c, cap_texts ex_defs ex_vars [] [] = Ok c /\ c_use c = [L "use grid_def, only: grid_t"; L "use machine, only: kind_phys"].
Proof.
  split; [apply (requires_kind ex_t); [right; right; right; now left|discriminate|discriminate]|].
  split; [apply (requires_type ex_g); intros [X|[X|[X|[X|[]]]]]; discriminate|].
  split; [intros n R; inversion R; [apply H0; reflexivity|apply H; now left]|].
  eexists. split; vm_compute; reflexivity.
Qed.

(* the import names the module of the container, if the name of the module does not
   contain MODULE_ itself *)
Theorem C151_import_from_module_partial k text : module_use k = Ok text ->
  (forall m, In (L "MODULE_" ++ m) (split_on " "%char (pv_container k)) -> replace (L "MODULE_") [] (L "MODULE_" ++ m) = m) ->
  imports k text.
Proof.
  unfold module_use. destruct (List.find _ _) as [item|] eqn:F; [|discriminate]. intros H M. apply Ok_inj in H. subst text.
  apply find_some in F as [I S]. unfold startswith in S. destruct (after_prefix (L "MODULE_") item) as [m|] eqn:P; [|discriminate].
  apply after_prefix_some in P. subst item. rewrite (M m I). now constructor.
Qed.
Print Assumptions C151_import_from_module_partial.
Example C151_module_example : module_use ex_ddt = Ok (L "use grid_def, only: grid_t") /\ imports ex_ddt (L "use grid_def, only: grid_t") /\
  forall m, In (L "MODULE_" ++ m) (split_on " "%char (pv_container ex_ddt)) -> replace (L "MODULE_") [] (L "MODULE_" ++ m) = m.
Proof.
  split; [vm_compute; reflexivity|]. split; [apply (imports_from ex_ddt (L "grid_def")); vm_compute; now left|].
  intros m I. vm_compute in I. destruct I as [I|[I|[]]]; [|discriminate]. injection I as <-. vm_compute. reflexivity.
Qed.
Theorem C151_module_name_mangled_refuted : exists k text, In (L "MODULE_PHYS_MODULE_A") (split_on " "%char (pv_container k)) /\
  module_use k = Ok text /\ text = L "use PHYS_A, only: kind_phys" /\ ~ imports k text.
Proof.
  exists (mkPV (L "kind_phys") (L "kind_phys") (L "integer") [] [] (L "in") (L "T") [] (L "MODULE_PHYS_MODULE_A")). eexists.
  split; [vm_compute; now left|]. split; [vm_compute; reflexivity|]. split; [reflexivity|].
  intros X. inversion X as [m I E]. cbn in I. destruct I as [I|[]]. injection I as <-. discriminate.
Qed.
Print Assumptions C151_module_name_mangled_refuted.

(* the declarations use the standard name of a kind, the imports its local name *)
Theorem C151_kind_by_other_name_refuted : exists defs vars c, cap_texts defs vars [] [] = Ok c /\
  c_defs c = [L "real(kind_physics), intent(in), target :: x"] /\ c_use c = [L "use machine, only: kind_phys"].
Proof.
  exists [(L "kind_physics", ex_kind)], [mkPV (L "x") (L "x") (L "real") (L "kind_physics") [] (L "in") (L "T") [] (L "MODULE_host")].
  eexists. split; [vm_compute; reflexivity|]. split; vm_compute; reflexivity.
Qed.
Print Assumptions C151_kind_by_other_name_refuted.

(* C152: the local variables and pointers of a cap: after the arguments, in order,
   every pointer type once and before its use; the kinds are imported once *)
Theorem C152_locals_declared defs vars tmpvars tmpptrs c : tmpvars ++ tmpptrs <> [] -> cap_texts defs vars tmpvars tmpptrs = Ok c ->
  exists c0 locals names, cap_texts defs vars [] [] = Ok c0 /\ c_args c = c_args c0 /\
    c_defs c = c_defs c0 ++ [[]; L "! Local variables/pointers for unit conversions, array transformations, ..."] ++ locals /\
    local_texts [] (map (pair false) tmpvars ++ map (pair true) tmpptrs) locals /\
    NoDup names /\ Forall2 (import_of defs) names (c_use c) /\
    (forall n, In n names <-> (exists v, In v vars /\ requires v n) \/
       (exists v, In v (tmpvars ++ tmpptrs) /\ intrinsic (pv_type v) /\ requires v n)).
Proof.
  intros NE H. unfold cap_texts in *. apply bind_inv in H as (c0 & H & E). destruct (tmpvars ++ tmpptrs) as [|t ts] eqn:T; [congruence|].
  apply bind_inv in E as (s & F & E). injection E as <-. apply tmp_inv in F as (A & (ds & D & LT) & U). cbn [fst snd c_args c_use c_defs c_seen] in *.
  exists c0, ds. rewrite args_part_fold in H. apply args_inv in H as (A0 & D0 & U0). cbn in U0.
  assert (UU : fold_r (add_use defs) (map needs (ordered vars) ++ map (fun t => needs_kind (snd t)) (map (pair false) tmpvars ++ map (pair true) tmpptrs)) ([], []) = Ok (c_use (fst s), c_seen (fst s))).
  { rewrite fold_r_app, U0. exact U. }
  apply uses_inv in UU as (ns & ms & E1 & E2 & G & N & K). cbn in E1, E2. exists (c_seen (fst s)).
  split.
  { assert (Q : args_part defs vars = Ok c0).
    { rewrite args_part_fold. destruct (fold_r (one_arg defs) (ordered vars) (mkC [] [] [] [])) as [c1|] eqn:Q.
      - destruct (args_inv _ _ _ _ Q) as (A1 & (d1 & D1 & F1) & U1). destruct D0 as (d0 & D0 & F0). cbn in *.
        assert (d1 = d0). { clear - F1 F0. revert d0 F0. induction F1; intros d0 F0; inversion F0; subst; [reflexivity|]. f_equal; [congruence|auto]. }
        subst d1. rewrite U0 in U1. injection U1 as U1 U2. destruct c0, c1; cbn in *. subst. reflexivity.
      - exfalso. destruct (args_ok defs (ordered vars) (mkC [] [] [] [])) as [c1 Q1]; [| |congruence].
        + destruct D0 as (d0 & _ & F0). clear - F0. induction F0; constructor; eauto.
        + cbn. eauto. }
    rewrite Q. reflexivity. }
  split; [exact A|]. split; [rewrite D, <- app_assoc; reflexivity|]. split; [exact LT|].
  split; [apply N; constructor|]. split; [rewrite E1, E2; exact G|].
  assert (KK : forall v n, needs_kind v = Some n <-> intrinsic (pv_type v) /\ requires v n).
  { intros v n. unfold needs_kind. destruct (standard_type (pv_type v)) eqn:S.
    - rewrite needs_iff. apply intrinsic_iff in S. tauto.
    - apply not_intrinsic in S. split; [discriminate|tauto]. }
  intros n. rewrite K, in_app_iff. split.
  - intros [[]|[I|I]].
    + left. apply in_map_iff in I as (v & E & I). apply needs_iff in E. exists v. split; [|exact E].
      apply (Permutation_in v (Permutation_sym (ordered_perm vars)) I).
    + right. apply in_map_iff in I as ([b v] & E & I). cbn in E. apply KK in E. exists v. split; [|exact E].
      rewrite <- T. apply in_app_iff in I as [I|I]; apply in_map_iff in I as (w & X & I); injection X as _ <-; apply in_or_app; auto.
  - intros [(v & I & R)|(v & I & R)]; right.
    + left. apply needs_iff in R. rewrite <- R. apply in_map. apply (Permutation_in v (ordered_perm vars) I).
    + right. rewrite <- T in I. apply KK in R. rewrite <- R. apply in_app_or in I as [I|I].
      * apply (in_map (fun t => needs_kind (snd t)) _ (false, v)). apply in_or_app. left. now apply in_map.
      * apply (in_map (fun t => needs_kind (snd t)) _ (true, v)). apply in_or_app. right. now apply in_map.
Qed.
Print Assumptions C152_locals_declared.
Definition ex_tmp := mkPV (L "temperature") (L "tmpvar_1") (L "real") (L "kind_phys") [L "1:n"; L "1:m"] (L "inout") (L "T") [] [].
Definition ex_ptr i := mkPV (L "humidity") i (L "real") (L "kind_phys") [L "1:n"] (L "in") (L "T") [] [].
Example C152_example : exists c, cap_texts ex_defs [ex_msg] [ex_tmp] [ex_ptr (L "q_1_ptr"); ex_ptr (L "r_2_ptr")] = Ok c /\
  c_use c = [L "use machine, only: kind_phys"] /\
  c_defs c = [L "character(len=512), intent(out), target :: msg"; [];
    L "! Local variables/pointers for unit conversions, array transformations, ...";
    L "real(kind_phys), dimension(:,:), allocatable, target :: tmpvar_1";
    L "type :: real_kind_phys_rank1_ptr_arr_type" ++ nl :: L "         real(kind_phys), dimension(:), pointer :: p => null()" ++
      nl :: L "      end type real_kind_phys_rank1_ptr_arr_type";
    L "type(real_kind_phys_rank1_ptr_arr_type), dimension(1:cdata%thrd_cnt) :: q_1_ptr_array";
    L "type(real_kind_phys_rank1_ptr_arr_type), dimension(1:cdata%thrd_cnt) :: r_2_ptr_array"].
Proof. eexists. split; [vm_compute; reflexivity|]. split; vm_compute; reflexivity. Qed.

(* the derived type of a local pointer is not imported *)
Theorem C152_derived_type_missing_refuted : exists defs vars ptr c, cap_texts defs vars [] [ptr] = Ok c /\ c_use c = [] /\
  In (L "type :: grid_t_default_kind_rank0_ptr_arr_type" ++ nl :: L "         type(grid_t), pointer :: p => null()" ++
      nl :: L "      end type grid_t_default_kind_rank0_ptr_arr_type") (c_defs c).
Proof.
  exists ex_defs, [ex_msg], ex_g. eexists. split; [vm_compute; reflexivity|]. split; [reflexivity|]. vm_compute. right. right. right. now left.
Qed.
Print Assumptions C152_derived_type_missing_refuted.
(* two pointers of different kinds may share a type, and a pointer to a text of
   assumed length has a type whose name is no Fortran name *)
Theorem C152_pointer_types_refuted :
  (exists v w, pv_type v = pv_type w /\ pv_dims v = pv_dims w /\ pv_kind v <> pv_kind w /\ intrinsic (pv_type v) /\ pointer_type v = pointer_type w) /\
  (exists v, pv_type v = L "character" /\ pv_kind v = L "len=*" /\ exists c, In c (pointer_type v) /\ is_word c = false).
Proof.
  split.
  - exists (mkPV (L "a") (L "a") (L "real") [] [] [] (L "T") [] []), (mkPV (L "b") (L "b") (L "real") (L "default_kind") [] [] (L "T") [] []).
    repeat split; try reflexivity; [discriminate|]. right. right. right. now left.
  - exists (mkPV (L "a") (L "a") (L "character") (L "len=*") [] [] (L "T") [] []). repeat split. exists "*"%char. split; [vm_compute; intuition auto|reflexivity].
Qed.
Print Assumptions C152_pointer_types_refuted.
(* for numeric and logical variables with a kind, the name tells type, kind and rank *)
Lemma digits_app_inj (a b x y : str) (c d : ascii) :
  Forall (fun c => is_digit c = true) x -> Forall (fun c => is_digit c = true) y -> is_digit c = false -> is_digit d = false ->
  a ++ c :: x = b ++ d :: y -> a ++ [c] = b ++ [d] /\ x = y.
Proof.
  intros Fx Fy Nc Nd. revert y Fy. induction x as [|e x IH] using rev_ind; intros y Fy E.
  - destruct y as [|f y _] using rev_ind; [auto|]. exfalso.
    change (d :: y ++ [f]) with ((d :: y) ++ [f]) in E. rewrite app_assoc in E. apply app_inj_tail in E as [_ E]. subst f.
    apply Forall_app in Fy as [_ Fy]. inversion Fy; congruence.
  - destruct y as [|f y _] using rev_ind.
    + exfalso. change (c :: x ++ [e]) with ((c :: x) ++ [e]) in E. rewrite app_assoc in E. apply app_inj_tail in E as [_ E]. subst e.
      apply Forall_app in Fx as [_ Fx]. inversion Fx; congruence.
    + change (c :: x ++ [e]) with ((c :: x) ++ [e]) in E. change (d :: y ++ [f]) with ((d :: y) ++ [f]) in E.
      rewrite !app_assoc in E. apply app_inj_tail in E as [E ->]. apply Forall_app in Fx as [Fx _]. apply Forall_app in Fy as [Fy _].
      destruct (IH Fx y Fy E) as [E1 ->]. auto.
Qed.
Lemma app_inj_len_r {A} (a b x y : list A) : length x = length y -> a ++ x = b ++ y -> a = b /\ x = y.
Proof.
  intros Hl E. assert (length a = length b). { apply (f_equal (@length A)) in E. rewrite !app_length in E. lia. }
  revert b H E. induction a as [|u a IH]; destruct b as [|v b]; cbn; intros H E; try discriminate; auto.
  injection E as -> E. injection H as H. destruct (IH b H E). subst. auto.
Qed.
Theorem C152_pointer_type_determines_partial v w :
  In (pv_type v) [L "integer"; L "logical"; L "real"] -> In (pv_type w) [L "integer"; L "logical"; L "real"] ->
  pv_kind v <> [] -> pv_kind w <> [] -> pointer_type v = pointer_type w ->
  pv_type v = pv_type w /\ pv_kind v = pv_kind w /\ length (pv_dims v) = length (pv_dims w).
Proof.
  intros Tv Tw Kv Kw E. unfold pointer_type in E.
  assert (Cv : str_eqb (pv_type v) (L "character") = false) by (destruct Tv as [<-|[<-|[<-|[]]]]; reflexivity).
  assert (Cw : str_eqb (pv_type w) (L "character") = false) by (destruct Tw as [<-|[<-|[<-|[]]]]; reflexivity).
  rewrite Cv, Cw in E. cbn [andb] in E. destruct (pv_kind v) as [|a kv] eqn:Ev; [congruence|]. destruct (pv_kind w) as [|b kw] eqn:Ew; [congruence|].
  cbn [nonempty] in E. rewrite <- Ev, <- Ew in *. clear Kv Kw.
  assert (X : pv_type v = pv_type w /\ pv_kind v ++ L "_rank" ++ str_of_nat (length (pv_dims v)) ++ L "_ptr_arr_type" =
              pv_kind w ++ L "_rank" ++ str_of_nat (length (pv_dims w)) ++ L "_ptr_arr_type").
  { destruct Tv as [Tv|[Tv|[Tv|[]]]], Tw as [Tw|[Tw|[Tw|[]]]]; rewrite <- Tv, <- Tw in *; cbn in E; injection E as E; try discriminate; auto. }
  destruct X as [T X]. split; [exact T|]. clear E.
  rewrite !(app_assoc (L "_rank")) in X. rewrite !app_assoc in X. apply app_inj_len_r in X as [X _]; [|reflexivity].
  change (L "_rank") with (L "_ran" ++ ["k"%char]) in X.
  rewrite <- !app_assoc in X. cbn [app] in X. rewrite !(app_assoc (pv_kind _) (L "_ran")) in X.
  pose proof (str_of_nat_digits (length (pv_dims v))) as D1. pose proof (str_of_nat_digits (length (pv_dims w))) as D2.
  rewrite forallb_forall in D1, D2.
  apply digits_app_inj in X as [X1 X2]; [| | |reflexivity|reflexivity]; try (apply Forall_forall; assumption).
  rewrite <- !app_assoc in X1. apply app_inj_len_r in X1 as [X1 _]; [|reflexivity]. split; [exact X1|now apply str_of_nat_inj].
Qed.
Print Assumptions C152_pointer_type_determines_partial.
Example C152_determines_example : In (pv_type ex_tmp) [L "integer"; L "logical"; L "real"] /\ pv_kind ex_tmp <> [] /\
  pointer_type ex_tmp = L "real_kind_phys_rank2_ptr_arr_type".
Proof. split; [cbn; auto|]. split; [discriminate|vm_compute; reflexivity]. Qed.
