(* AlProps.v: local variables of group subroutines (C179-C181). *)
From Coq Require Import List Ascii String ZArith Bool Lia Permutation.
From Verif Require Import PyStr Base ReqModel ReqProofs CheckProofs HdrModel HdrProofs ArProofs AlModel AlSpec AlProofs.
Import ListNotations.
Open Scope nat_scope. Open Scope list_scope.

(* C179: with distinct local names each declaration of a group goes to exactly one list, and keeps its order there: arrays to
   the allocatable arrays, unless optional; optional arrays to the optional arrays if the call list has them and to the inactive ones
   if not; variables without dimensions to the scalars; local copies for transforms are arrays or scalars whatever their optional is *)
Theorem C179_lists : forall (compat : lvar -> lvar -> bool) (g : group), NoDup (map l_name (g_decls g) ++ map l_name (g_transforms g)) ->
  exists p, group_parts compat g = Ok p /\
    p_alloc p = List.filter (fun v => match l_dims v with [] => false | _ => negb (l_opt v) end) (g_decls g) ++ List.filter (fun v => match l_dims v with [] => false | _ => true end) (g_transforms g) /\
    p_scalar p = List.filter (fun v => match l_dims v with [] => true | _ => false end) (g_decls g) ++ List.filter (fun v => match l_dims v with [] => true | _ => false end) (g_transforms g) /\
    (forall v, In v (p_opt p) <-> In v (g_decls g) /\ l_dims v <> [] /\ l_opt v = true /\ exists c, In c (g_call g) /\ l_std c = l_std v) /\
    (forall v, In v (p_inactive p) <-> In v (g_decls g) /\ l_dims v <> [] /\ l_opt v = true /\ ~ exists c, In c (g_call g) /\ l_std c = l_std v).
Proof.
  intros compat g N. assert (N1 := Base.NoDup_app_l _ _ N). assert (N2 := Base.NoDup_app_r _ _ N).
  assert (D : forall x, In x (map l_name (g_decls g)) -> In x (map l_name (g_transforms g)) -> False) by (intros x I J; exact (Base.NoDup_app_disj _ _ N x I J)).
  unfold group_parts. rewrite classify_ok; [|exact N1|cbn [p_alloc p_opt p_scalar names map app]; auto].
  cbn [bind p_alloc p_opt p_scalar p_inactive app]. rewrite transforms_ok; [|exact N2|].
  2:{ cbn [p_alloc p_scalar]. intros v I H. unfold names in H. rewrite in_app_iff, !in_map_iff in H.
      assert (IT : In (l_name v) (map l_name (g_transforms g))) by now apply in_map.
      destruct H as [(w & E & F)|(w & E & F)]; apply filter_In in F as [F _]; (apply (D (l_name v)); [rewrite <- E; now apply in_map|exact IT]). }
  eexists. split; [reflexivity|]. cbn [p_alloc p_opt p_scalar p_inactive].
  assert (CI : forall s, is_called g s = true <-> exists c, In c (g_call g) /\ l_std c = s).
  { intros s. unfold is_called. rewrite mem_in, in_map_iff. split; intros (c & A & B); eauto. }
  assert (KD : forall v, k_scalar v = false <-> l_dims v <> []) by (intros v; unfold k_scalar; destruct (l_dims v); split; intros; congruence).
  split; [f_equal; apply filter_ext; intros v; unfold k_alloc, k_scalar; destruct (l_dims v); reflexivity|].
  split; [f_equal; apply filter_ext; intros v; reflexivity|].
  split; intros v; rewrite filter_In; unfold k_opt, k_inactive; rewrite !andb_true_iff, negb_true_iff, KD.
  - rewrite CI. tauto.
  - rewrite negb_true_iff, <- not_true_iff_false, CI. tauto.
Qed.
Definition dv (n : string) (ds : list string) (o : bool) : lvar := mkLv (L n ++ L "_std") (L n) (map L ds) o.
Definition g0 : group := mkGroup [dv "t" ["ncol"; "nlev"] false; dv "s" [] true; dv "q" ["ncol"] true; dv "r" ["ncol"] true] [dv "ncol" [] false; dv "q" ["ncol"] true] [dv "t_local" ["ncol"] true].
Example C179_nonvacuous : NoDup (map l_name (g_decls g0) ++ map l_name (g_transforms g0)) /\
  group_parts (fun _ _ => true) g0 = Ok (mkParts [dv "t" ["ncol"; "nlev"] false; dv "t_local" ["ncol"] true] [dv "q" ["ncol"] true] [dv "s" [] true] [dv "r" ["ncol"] true]).
Proof. split; [|vm_compute; reflexivity]. cbn. repeat constructor; cbn; intuition discriminate. Qed.
Print Assumptions C179_lists.

(* the check for a variable declared twice never lets two scalars pass: where the code is about to say that it already declares the
   variable it looks for it among the arrays only, and raises KeyError *)
Theorem C179_duplicate_scalar_refuted : forall (compat : lvar -> lvar -> bool) (call : list lvar) (a b : lvar) (rest : list lvar),
  l_dims a = [] -> l_name b = l_name a -> group_parts compat (mkGroup (a :: b :: rest) call []) = Raise "KeyError".
Proof.
  intros compat call a b rest DA E. unfold group_parts. cbn [g_decls g_transforms classify]. unfold classify1 at 1. cbn [has_name p_alloc p_opt p_scalar map mem existsb orb].
  rewrite DA. cbn [bind app]. unfold classify1 at 1. cbn [p_alloc p_opt p_scalar map]. unfold has_name. cbn [map]. rewrite E.
  assert (M : mem (l_name a) [l_name a] = true) by (apply mem_in; now left). rewrite M. cbn [mem existsb orb find_name List.find bind]. reflexivity.
Qed.
Print Assumptions C179_duplicate_scalar_refuted.

(* C180: when the local name of every standard name in the dimensions is known the group writes its statements; run before the
   schemes, they give each array the bounds of its metadata and leave everything else as it was; the statements after the schemes leave
   none of the arrays allocated, whatever the schemes did to them, and touch nothing else *)
Theorem C180_written : forall (p : parts) (order : list str -> list str) (lookup : str -> option str), is_order order ->
  NoDup (map l_name (p_alloc p)) -> NoDup (map l_name (p_opt p)) ->
  (exists ts, group_allocate order lookup p = Ok ts) <-> (forall v d x, In v (p_alloc p ++ p_opt p) -> In d (l_dims v) -> In x (split_on ":" d) -> exists n, lookup x = Some n).
Proof.
  intros p order lookup OR N1 N2. unfold group_allocate.
  assert (K : forall l ns, NoDup (map l_name l) -> (forall n, In n ns <-> In n (map l_name l)) ->
    ((exists ts, map_res (alloc_stmt lookup l) ns = Ok ts) <-> (forall v d x, In v l -> In d (l_dims v) -> In x (split_on ":" d) -> exists n, lookup x = Some n))).
  { intros l ns N M. split.
    - intros (ts & H) v d x I J X. apply map_res_inv in H. assert (IN : In (l_name v) ns) by (apply M; now apply in_map).
      destruct (F2_in_l _ _ _ _ H IN) as (t & T). unfold alloc_stmt in T. destruct (find_name (l_name v) l) as [w|] eqn:F; [|discriminate].
      apply find_name_in in F as [F1 F2]. assert (w = v) by (apply (name_inj l); auto). subst w.
      apply bind_inv in T as (u & U & _). apply (proj1 (dims_ok lookup (l_dims v)) (ex_intro _ _ U) d x J X).
    - intros H. assert (Q : exists ys, map_res (alloc_stmt lookup l) ns = Ok ys /\ List.length ys = List.length ns); [|destruct Q as (ys & Q & _); eauto].
      apply map_res_ok. intros n I. apply M in I. destruct (find_name_ex n l I) as (v & F). unfold alloc_stmt. rewrite F. apply find_name_in in F as [F1 F2].
      destruct (proj2 (dims_ok lookup (l_dims v))) as (t & T); [intros d x J X; eapply H; eauto|]. rewrite T. cbn [bind]. eauto. }
  assert (KA := K (p_alloc p) (sorted (map l_name (p_alloc p))) N1 (fun n => in_sorted _ n)).
  assert (KO := K (p_opt p) (order (map l_name (p_opt p))) N2). 
  assert (MO : forall n, In n (order (map l_name (p_opt p))) <-> In n (map l_name (p_opt p))).
  { intros n. split; apply Permutation_in; [apply OR|apply Permutation_sym, OR]. }
  specialize (KO MO). split.
  - intros (ts & H). apply bind_inv in H as (a & A & H). apply bind_inv in H as (o & O & H). intros v d x I. apply in_app_or in I as [I|I]; [apply (proj1 KA)|apply (proj1 KO)]; eauto.
  - intros H. destruct (proj2 KA) as (a & ->); [intros v d x I; apply (H v d x), in_or_app; now left|]. cbn [bind].
    destruct (proj2 KO) as (o & ->); [intros v d x I; apply (H v d x), in_or_app; now right|]. cbn [bind]. eauto.
Qed.
Print Assumptions C180_written.

Theorem C180_allocated : forall (p : parts) (order : list str -> list str) (lookup : str -> option str) (env : str -> Z) (h : heap) (ts : list str), is_order order ->
  NoDup (map l_name (p_alloc p) ++ map l_name (p_opt p)) -> (forall v d, In v (p_alloc p ++ p_opt p) -> In d (l_dims v) -> simple_dim d) -> (forall v, In v (p_alloc p ++ p_opt p) -> l_dims v <> []) ->
  (forall x n, lookup x = Some n -> plain n) -> (forall v, In v (p_alloc p ++ p_opt p) -> h (l_name v) = None) ->
  group_allocate order lookup p = Ok ts ->
  exists h', effects env ts h h' /\
    (forall v, In v (p_alloc p ++ p_opt p) -> exists vs, Forall2 (dim_value lookup env) (l_dims v) vs /\ h' (l_name v) = Some vs) /\
    (forall n, ~ In n (map l_name (p_alloc p ++ p_opt p)) -> h' n = h n).
Proof.
  intros p order lookup env h ts OR N SD NE PL HN H. assert (N1 := Base.NoDup_app_l _ _ N). assert (N2 := Base.NoDup_app_r _ _ N).
  assert (D : forall x, In x (map l_name (p_alloc p)) -> In x (map l_name (p_opt p)) -> False) by (intros x I J; exact (Base.NoDup_app_disj _ _ N x I J)).
  unfold group_allocate in H. apply bind_inv in H as (a & A & H). apply bind_inv in H as (o & O & H). apply Ok_inj in H. subst ts.
  assert (MO : forall n, In n (order (map l_name (p_opt p))) <-> In n (map l_name (p_opt p))).
  { intros n. split; apply Permutation_in; [apply OR|apply Permutation_sym, OR]. }
  destruct (allocs_effect lookup env (p_alloc p)) with (ns := sorted (map l_name (p_alloc p))) (ts := a) (h := h) as (h1 & E1 & P1 & P2); auto.
  { intros v I. split; [apply NE|intros d J; apply (SD v d)]; auto; apply in_or_app; now left. }
  { now apply nd_sorted. }
  { intros n I. apply (proj1 (in_sorted _ _)), in_map_iff in I as (v & <- & I). apply HN, in_or_app. now left. }
  destruct (allocs_effect lookup env (p_opt p)) with (ns := order (map l_name (p_opt p))) (ts := o) (h := h1) as (h2 & E2 & Q1 & Q2); auto.
  { intros v I. split; [apply NE|intros d J; apply (SD v d)]; auto; apply in_or_app; now right. }
  { apply (Permutation_NoDup (Permutation_sym (OR _))). exact N2. }
  { intros n I. apply MO in I. rewrite P2; [|intros J; apply (proj1 (in_sorted _ _)) in J; exact (D n J I)]. apply in_map_iff in I as (v & <- & I). apply HN, in_or_app. now right. }
  exists h2. split; [eapply effects_app; eauto|]. split.
  - intros v I. apply in_app_or in I as [I|I].
    + destruct (P1 (l_name v)) as (w & vs & W1 & W2 & W3 & W4); [apply (proj2 (in_sorted _ _)); now apply in_map|]. assert (w = v) by (apply (name_inj (p_alloc p)); auto). subst w.
      exists vs. split; [exact W3|]. rewrite Q2; [exact W4|]. intros J. apply MO in J. apply (D (l_name v)); [now apply in_map|exact J].
    + destruct (Q1 (l_name v)) as (w & vs & W1 & W2 & W3 & W4); [apply MO; now apply in_map|]. assert (w = v) by (apply (name_inj (p_opt p)); auto). subst w. eauto.
  - intros n I. rewrite map_app, in_app_iff in I. rewrite Q2; [apply P2|]; intros J; apply I; [left; now apply (proj1 (in_sorted _ _))|right; now apply MO].
Qed.
Print Assumptions C180_allocated.

Theorem C180_freed : forall (p : parts) (order : list str -> list str) (env : str -> Z) (h : heap), is_order order ->
  exists h', effects env (group_deallocate order p) h h' /\ (forall v, In v (p_alloc p ++ p_opt p) -> h' (l_name v) = None) /\
    (forall n, ~ In n (map l_name (p_alloc p ++ p_opt p)) -> h' n = h n).
Proof.
  intros p order env h OR. unfold group_deallocate. rewrite <- map_app.
  destruct (frees_effect env (sorted (map l_name (p_alloc p)) ++ order (map l_name (p_opt p))) h) as (h' & E & P1 & P2).
  assert (M : forall n, In n (sorted (map l_name (p_alloc p)) ++ order (map l_name (p_opt p))) <-> In n (map l_name (p_alloc p ++ p_opt p))).
  { intros n. rewrite map_app, !in_app_iff, in_sorted. split; (intros [I|I]; [now left|right]); revert I; apply Permutation_in; [apply OR|apply Permutation_sym, OR]. }
  exists h'. split; [exact E|]. split; [intros v I; apply P1, M; now apply in_map|]. intros n I. apply P2. intros J. apply I. now apply M.
Qed.
Definition look0 (d : str) : option str := if str_eqb d (L "ncol") then Some (L "nc") else if str_eqb d (L "nlev") then Some (L "nz") else if str_eqb d (L "lo") then Some (L "b") else None.
Definition p0 : parts := mkParts [dv "t" ["ncol"; "lo:nlev"] false] [dv "q" ["ncol"] true] [] [].
Example C180_nonvacuous : group_allocate (fun l => l) look0 p0 = Ok [L "allocate(t(nc, b:nz))"; L "allocate(q(nc))"] /\
  group_deallocate (fun l => l) p0 = [L "if (allocated(t))                     deallocate(t)"; L "if (allocated(q))                     deallocate(q)"] /\
  is_order (fun l : list str => l) /\ NoDup (map l_name (p_alloc p0) ++ map l_name (p_opt p0)) /\ (forall v d, In v (p_alloc p0 ++ p_opt p0) -> In d (l_dims v) -> simple_dim d) /\
  (forall v, In v (p_alloc p0 ++ p_opt p0) -> l_dims v <> []) /\ (forall x n, look0 x = Some n -> plain n) /\
  group_allocate (fun l => l) (fun _ => None) p0 = Raise "CCPPError".
Proof.
  split; [vm_compute; reflexivity|]. split; [vm_compute; reflexivity|]. split; [intros l; apply Permutation_refl|].
  split; [cbn; repeat constructor; cbn; intuition discriminate|]. split; [|split; [|split; [|vm_compute; reflexivity]]].
  - intros v d I J. cbn in I. destruct I as [<- | [<- | []]]; cbn in J.
    + destruct J as [<- | [<- | []]]; [left; cbn; intuition discriminate|right; exists (L "lo"), (L "nlev"); split; [reflexivity|]; cbn; intuition discriminate].
    + destruct J as [<- | []]. left; cbn; intuition discriminate.
  - intros v I. cbn in I. destruct I as [<- | [<- | []]]; discriminate.
  - intros x n. unfold look0. destruct (str_eqb x (L "ncol")); [|destruct (str_eqb x (L "nlev")); [|destruct (str_eqb x (L "lo"))]]; intros E; try discriminate; injection E as <-; unfold plain; cbn; intuition discriminate.
Qed.
Print Assumptions C180_freed.

(* the text is not a function of the group: the optional arrays come in the order of a Python set *)
Theorem C180_order_refuted : exists (p : parts) (lookup : str -> option str) (o1 o2 : list str -> list str), is_order o1 /\ is_order o2 /\
  (exists t1 t2, group_allocate o1 lookup p = Ok t1 /\ group_allocate o2 lookup p = Ok t2 /\ t1 <> t2) /\ group_deallocate o1 p <> group_deallocate o2 p.
Proof.
  exists (mkParts [] [dv "q" ["ncol"] true; dv "r" ["ncol"] true] [] []), look0, (fun l => l), (@rev str).
  split; [intros l; apply Permutation_refl|]. split; [intros l; apply Permutation_sym, Permutation_rev|].
  split; [|intros E; vm_compute in E; discriminate]. eexists. eexists. split; [vm_compute; reflexivity|]. split; [vm_compute; reflexivity|]. intros E; discriminate.
Qed.
Print Assumptions C180_order_refuted.

(* C181: the pointers: one for each optional variable of the call list, in its order, then one for each inactive variable; the name is the
   variable's with _ptr, the rank is the variable's; this holds as soon as the group declares anything of its own *)
Theorem C181_pointers : forall (compat : lvar -> lvar -> bool) (order : list lvar -> list lvar) (g : group) (p : parts), is_order order ->
  g_decls g <> [] \/ g_transforms g <> [] \/ (forall c, In c (g_call g) -> l_opt c = false) -> group_parts compat g = Ok p ->
  exists more, group_pointers order g p = Ok (map (fun c => (l_name c ++ L "_ptr", List.length (l_dims c))) (List.filter l_opt (g_call g)) ++ more) /\
    Permutation more (map (fun v => (l_name v ++ L "_ptr", List.length (l_dims v))) (p_inactive p)).
Proof.
  intros compat order g p OR H GP. exists (map pointer (order (p_inactive p))). split; [|apply Permutation_map, OR].
  unfold group_pointers. fold pointer. change (fun c => (l_name c ++ L "_ptr", List.length (l_dims c))) with pointer.
  destruct (map pointer (List.filter l_opt (g_call g)) ++ map pointer (order (p_inactive p))) as [|x r] eqn:X; [exact (f_equal (@Ok _) (eq_sym X))|].
  destruct (g_decls g) as [|d ds] eqn:GD; [|exact (f_equal (@Ok _) (eq_sym X))]. 
  unfold group_parts in GP. rewrite GD in GP. cbn [classify bind] in GP. apply Ok_inj in GP.
  destruct H as [H|[H|H]]; [congruence| |].
  - assert (K : forall l q, (l <> [] \/ p_alloc q <> [] \/ p_scalar q <> []) -> p_alloc (fold_left add_transform l q) <> [] \/ p_scalar (fold_left add_transform l q) <> []).
    { induction l as [|v l IH]; intros q Q; [tauto|]. cbn [fold_left]. apply IH. right. unfold add_transform.
      assert (PV : forall w, put_var v w <> []) by (intros w; unfold put_var; destruct (has_name (l_name v) w) eqn:HN; [destruct w; [discriminate|discriminate]|now destruct w]).
      destruct (l_dims v); cbn [p_alloc p_scalar]; [right|left]; apply PV. }
    specialize (K (g_transforms g) (mkParts [] [] [] []) (or_introl H)). rewrite GP in K. destruct (p_alloc p); [|exact (f_equal (@Ok _) (eq_sym X))]. destruct (p_scalar p); [|exact (f_equal (@Ok _) (eq_sym X))]. destruct K; congruence.
  - assert (FN : List.filter l_opt (g_call g) = []).
    { clear - H. induction (g_call g) as [|c l IH]; [reflexivity|]. cbn [List.filter]. rewrite (H c) by now left. apply IH. intros; apply H; now right. }
    assert (PI : forall l q, p_inactive (fold_left add_transform l q) = p_inactive q).
    { induction l as [|v l IH]; intros q; [reflexivity|]. cbn [fold_left]. rewrite IH. unfold add_transform. now destruct (l_dims v). }
    assert (IN : p_inactive p = []) by (rewrite <- GP; apply PI). rewrite FN, IN in X. assert (Q := OR []). apply Permutation_sym, Permutation_nil in Q. rewrite Q in X. discriminate.
Qed.
Example C181_nonvacuous : exists p, group_parts (fun _ _ => true) g0 = Ok p /\ group_pointers (fun l => l) g0 p = Ok [(L "q_ptr", 1); (L "r_ptr", 1)].
Proof. eexists. split; vm_compute; reflexivity. Qed.
Print Assumptions C181_pointers.

(* a group whose only locals are the pointers of its optional dummy arguments is not written: the declaration of the pointers is a method
   of the variable the previous loops have left over, and there is none *)
Theorem C181_no_locals_refuted : forall (compat : lvar -> lvar -> bool) (order : list lvar -> list lvar) (call : list lvar), (exists c, In c call /\ l_opt c = true) ->
  exists p, group_parts compat (mkGroup [] call []) = Ok p /\ group_pointers order (mkGroup [] call []) p = Raise "UnboundLocalError".
Proof.
  intros compat order call (c & I & O). exists (mkParts [] [] [] []). split; [reflexivity|]. unfold group_pointers. cbn [g_call g_decls p_alloc p_scalar p_opt p_inactive].
  assert (F : In c (List.filter l_opt call)) by now apply filter_In. destruct (List.filter l_opt call); [destruct F|]. reflexivity.
Qed.
Print Assumptions C181_no_locals_refuted.
