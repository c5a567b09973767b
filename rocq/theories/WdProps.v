(* WdProps.v: the declarations of generated caps (C162-C166). *)
From Verif Require Import PyStr Base PhaseSpec CheckSpec CheckProofs LineSpec Regex CheckModel DictModel HdrModel CsModel CsProofs DeclModel DeclSpec DeclProofs DeclBody DeclProps WdModel WdSpec WdProofs WdModes.
From Coq Require Import Lia.
Open Scope nat_scope.
Open Scope list_scope.

Lemma has_b n al b : is_setb n al = b -> (has n al <-> b = true).
Proof. intros E. unfold has. rewrite is_set_b, E. tauto. Qed.
Lemma no_intent_b al : forallb (fun a => negb (named "intent" a)) al = true -> no_intent al.
Proof. intros H a I. rewrite forallb_forall in H. apply H in I. now apply negb_true_iff. Qed.
Lemma nodup_b (l : list str) : (fix nd l := match l with [] => true | x :: r => negb (existsb (str_eqb x) r) && nd r end) l = true -> NoDup l.
Proof.
  induction l as [|x l IH]; intros H; constructor.
  - apply andb_true_iff in H as [H _]. apply negb_true_iff in H. intros I. assert (T : existsb (str_eqb x) l = true) by (apply existsb_exists; exists x; split; auto; now apply str_eqb_eq). congruence.
  - apply andb_true_iff in H as [_ H]. auto.
Qed.
Definition is_const (w : wvar) : Prop := v_std (w_var w) = L "ccpp_constant_one".
Lemma const_b w : str_eqb (v_std (w_var w)) const_one = true <-> is_const w.
Proof. apply str_eqb_eq. Qed.

(* ---- C162: dummy arguments ---- *)
Lemma dummy_def fuel w d tgt add ext t : write_def fuel w d false tgt true add ext = Ok (Some t) ->
  ~ is_const w /\ exists i, (match w_intent w with Some x => Some x | None => add end) = Some i /\
  t = definition w ext (intent_str w false tgt true (Some i) (match v_dims (w_var w) with [] => [] | _ => colons (v_dims (w_var w)) end)) (base_name (w_var w)) (match v_dims (w_var w) with [] => [] | _ => colons (v_dims (w_var w)) end).
Proof.
  unfold write_def. destruct (str_eqb _ const_one) eqn:C; [discriminate|]. rewrite andb_false_r. cbn [orb].
  assert (ED : match v_dims (w_var w) with [] => Ok [] | _ :: _ => Ok (colons (v_dims (w_var w))) end = Ok (match v_dims (w_var w) with [] => [] | _ :: _ => colons (v_dims (w_var w)) end)) by (destruct (v_dims (w_var w)); reflexivity).
  rewrite ED. cbn [bind]. intros H. split; [intros X; apply const_b in X; congruence|].
  destruct (w_intent w) as [x|]; [|destruct add as [x|]; [|discriminate]]; cbn [bind] in H; apply Ok_eq in H; injection H as <-; exists x; split; reflexivity.
Qed.
Lemma dummy_line fuel w d tgt add ext t n T K : object_name (w_var w) n -> readable_type w T K ->
  (forall i, declared_intent w add i -> intent_ok i) -> write_def fuel w d false tgt true add ext = Ok (Some t) ->
  ~ is_const w /\ exists i x, declared_intent w add i /\ (w_protected w = false -> x = i) /\
  declaration (hd_text w) (dummy_attrs w x (spaces (pad w ext))) [mkEnt [] n [] (open_shape (length (v_dims (w_var w)))) [] None] t /\
  Forall plain_attr (dummy_attrs w x (spaces (pad w ext))) /\ (forall a, In a (dummy_attrs w x (spaces (pad w ext))) -> named "dimension" a = false).
Proof.
  intros N R IO H. apply dummy_def in H as (C & i & E & ->). split; auto. destruct (object_base _ _ N) as [B ID]. destruct (head_text w T K R) as [HD NB].
  exists (if w_protected w then L "in" else i), i. assert (DI : declared_intent w add (if w_protected w then L "in" else i)).
  { unfold declared_intent. destruct (w_protected w); [reflexivity|]. destruct (w_intent w); [now injection E|exact E]. }
  split; auto. split; [now intros ->|].
  assert (PL : Forall plain_attr (dummy_attrs w i (spaces (pad w ext)))).
  { destruct (w_protected w) eqn:P.
    - unfold dummy_attrs. rewrite P. apply Forall_app. split; [unfold targ_attrs; destruct (w_target w); [apply Forall_cons|]; try apply Forall_nil; apply plain_none; try reflexivity; cbn; tauto|].
      apply Forall_cons; [|apply Forall_nil]. apply plain_intent; [apply spaces_blank|reflexivity|cbn; tauto].
    - apply dummy_plain; [|apply spaces_blank]. apply IO. exact DI. }
  split; [|split; [exact PL|]]; cycle 1.
  { clear. generalize (spaces (pad w ext)) as sp. intros sp a I. assert (X : forallb (fun a => negb (named "dimension" a)) (dummy_attrs w i sp) = true).
    { unfold dummy_attrs, targ_attrs. destruct (w_target w), (w_protected w), (ends_out i && w_allocatable w), (w_optional w); reflexivity. }
    rewrite forallb_forall in X. apply X in I. now apply negb_true_iff. }
  rewrite definition_eq. set (ds := match v_dims (w_var w) with [] => @nil ascii | _ :: _ => colons (v_dims (w_var w)) end).
  destruct (dummy_text w i (spaces (pad w ext)) ds) as [_ TX]. specialize (TX tgt). rewrite B.
  pose proof (make_declaration (hd_text w) T K (w_ddt w) [] (dummy_attrs w i (spaces (pad w ext))) n (open_shape (length (v_dims (w_var w)))) [] None HD NB eq_refl PL ID (open_fine _) eq_refl) as M.
  rewrite shape_text in M. fold ds in M. cbn [app] in M. rewrite app_nil_r in M.
  match type of TX with ?l = ?r => replace (hd_text w ++ _) with (hd_text w ++ l ++ n ++ ds) by (rewrite <- !app_assoc; reflexivity) end.
  rewrite TX, <- app_assoc. apply M. discriminate.
Qed.
(* What is declared: the object, with its type, kind, rank and intent. *)
Theorem C162_dummy : forall fuel w d tgt add ext t n T K, object_name (w_var w) n -> readable_type w T K ->
  (forall i, declared_intent w add i -> intent_ok i) -> write_def fuel w d false tgt true add ext = Ok (Some t) ->
  exists h al e i, head h T K (w_ddt w) /\ declaration h al [e] t /\
    e_name e = n /\ e_dims e = open_shape (length (v_dims (w_var w))) /\ e_init e = None /\
    declared_intent w add i /\ has_intent i al /\ (forall a, In a al -> named "dimension" a = false) /\
    (has "allocatable" al <-> w_allocatable w = true /\ w_protected w = false /\ output i) /\
    (has "optional" al <-> w_optional w = true /\ w_protected w = false /\ ~ (w_allocatable w = true /\ output i)) /\
    (polymorphic_type h <-> w_ddt w = true /\ w_polymorphic w = true) /\
    (~ (w_target w = true /\ w_optional w = true) -> legal true h al e).
Proof.
  intros fuel w d tgt add ext t n T K N R IO H. destruct (dummy_line _ _ _ _ _ _ _ _ _ _ N R IO H) as (_ & i & x & DI & XI & D & PL & ND).
  destruct (head_text w T K R) as [HD NB]. set (sp := spaces (pad w ext)) in *.
  exists (hd_text w), (dummy_attrs w x sp), (mkEnt [] n [] (open_shape (length (v_dims (w_var w)))) [] None), i. cbn [e_name e_dims e_init].
  split; auto. split; auto. split; auto. split; auto. split; auto. split; auto.
  assert (IK := IO i DI). assert (EO : w_protected w = false -> (ends_out x = true <-> output i)) by (intros P; rewrite (XI P); apply ends_out_spec; auto).
  assert (HI : has_intent i (dummy_attrs w x sp)).
  { red. unfold dummy_attrs, targ_attrs. destruct (w_protected w) eqn:P.
    - unfold declared_intent in DI. rewrite P in DI. subst i. destruct (w_target w); reflexivity.
    - rewrite (XI eq_refl). destruct (w_target w), (ends_out i && w_allocatable w), (w_optional w); reflexivity. }
  split; auto. split; [exact ND|].
  assert (HA : is_setb "allocatable" (dummy_attrs w x sp) = negb (w_protected w) && (ends_out x && w_allocatable w)).
  { unfold dummy_attrs, targ_attrs. destruct (w_target w), (w_protected w), (ends_out x && w_allocatable w), (w_optional w); reflexivity. }
  assert (HO : is_setb "optional" (dummy_attrs w x sp) = negb (w_protected w) && negb (ends_out x && w_allocatable w) && w_optional w).
  { unfold dummy_attrs, targ_attrs. destruct (w_target w), (w_protected w), (ends_out x && w_allocatable w), (w_optional w); reflexivity. }
  assert (HP : is_setb "pointer" (dummy_attrs w x sp) = false).
  { unfold dummy_attrs, targ_attrs. destruct (w_target w), (w_protected w), (ends_out x && w_allocatable w), (w_optional w); reflexivity. }
  split; [|split; [|split]].
  - rewrite (has_b _ _ _ HA). destruct (w_protected w); cbn [negb andb]; [intuition discriminate|]. rewrite andb_true_iff, EO by auto. tauto.
  - rewrite (has_b _ _ _ HO). destruct (w_protected w); cbn [negb andb]; [intuition discriminate|]. rewrite andb_true_iff, negb_true_iff, andb_false_iff.
    destruct (ends_out x), (w_allocatable w); intuition (try discriminate).
  - split; [now apply (head_class w T K)|]. intros [A B]. unfold hd_text. rewrite A, B. exists (L "class"), (L "(" ++ w_kind w ++ L ")"). split; reflexivity.
  - intros NT. constructor; cbn [e_dims]; auto.
    + unfold once. unfold dummy_attrs, targ_attrs. destruct (w_target w), (w_protected w), (ends_out x && w_allocatable w), (w_optional w); try (apply nodup_b; reflexivity). elim NT. auto.
    + intros j J. red in J, HI. rewrite HI in J. injection J as <-. exact IK.
    + intros Q. destruct (v_dims (w_var w)) as [|y l]; [now left|]. right. now exists (length l).
    + intros [P _]. rewrite (has_b _ _ _ HP) in P. discriminate.
Qed.
Print Assumptions C162_dummy.
Definition wv (std loc : string) (dims : list str) (ty kd : string) (i : option str) : wvar :=
  mkW (mkV (L std) (L loc) dims) false (L ty) (L kd) i false false false false false.
Definition ex_q : wvar := wv "specific_humidity" "q" [L "ccpp_constant_one:horizontal_loop_extent"; L "ccpp_constant_one:vertical_layer_dimension"] "real" "kind_phys" (Some (L "inout")).
Definition ex_opt : wvar := mkW (w_var ex_q) false (L "real") (L "kind_phys") (Some (L "out")) false false true false false.
Example C162_example :
  write_def 9 ex_q [] false false true None 0 = Ok (Some (L "real(kind_phys),    intent(inout) :: q(:,:)")) /\
  write_def 9 ex_opt [] false false true None 0 = Ok (Some (L "real(kind_phys),    intent(out),  target, optional  :: q(:,:)")) /\
  object_name (w_var ex_q) (L "q") /\ readable_type ex_q (L "real") (Some (L "kind_phys")) /\ intent_ok (L "inout").
Proof.
  split; [vm_compute; reflexivity|]. split; [vm_compute; reflexivity|]. split; [left; split; [apply fname_ident; exists "q"%char, []; repeat split|reflexivity]|].
  split; [apply RT_kind; [reflexivity|right; left; reflexivity|split; [discriminate|split; [reflexivity|discriminate]]]|cbn; tauto].
Qed.
(* The framework's own parser reads back what was declared. *)
Lemma no_last n al : (forall a, In a al -> named n a = false) -> last_arg n al = None.
Proof.
  intros H. unfold last_arg. destruct (List.find (named n) (rev al)) as [a|] eqn:E; [|reflexivity].
  apply List.find_some in E as [I E]. apply in_rev, H in I. congruence.
Qed.
Lemma intent_strip i : intent_ok i -> strip i = i.
Proof.
  intros I. apply strip_solid, solid_chars; [intros ->; destruct I as [I|[I|[I|[]]]]; discriminate|].
  intros c C. rewrite <- lower_space. assert (X : In (lower_c c) (lower i)) by (change (lower i) with (map lower_c i); now apply in_map).
  destruct I as [I|[I|[I|[]]]]; rewrite <- I in X; cbn in X; repeat destruct X as [X|X]; try (rewrite <- X; reflexivity); destruct X.
Qed.
Theorem C162_read_back : forall logger fuel w d tgt add ext t n T K, object_name (w_var w) n -> readable_type w T K ->
  (forall i, declared_intent w add i -> intent_ok i) -> write_def fuel w d false tgt true add ext = Ok (Some t) ->
  exists v i, parse_fortran_var_decl true logger t = Ok [v] /\
    dv_name v = n /\ dv_type v = T /\ dv_kind v = K /\ dv_ddt v = w_ddt w /\
    dv_dims v = match open_shape (length (v_dims (w_var w))) with Some x => L "(" ++ x ++ L ")" | None => L "()" end /\
    declared_intent w add i /\ dv_intent v = Some (lower i) /\
    (dv_allocatable v = true <-> w_allocatable w = true /\ w_protected w = false /\ output i) /\
    (dv_optional v = true <-> w_optional w = true /\ w_protected w = false /\ ~ (w_allocatable w = true /\ output i)).
Proof.
  intros logger fuel w d tgt add ext t n T K N R IO H. destruct (C162_dummy _ _ _ _ _ _ _ _ _ _ N R IO H) as (h & al & e & i & HD & D & EN & ED & EI & DI & HI & ND & HA & HO & _ & _).
  destruct (C113_declaration logger h T K (w_ddt w) al [e] t HD D) as (vs & P & F). inversion F as [|? v ? vs' SV F']; subst. inversion F'; subst. exists v, i. split; auto.
  destruct SV as (S1 & S2 & S3 & S4 & S5 & S6 & S7 & S8). rewrite ED in S8. split; auto. split; auto. split; auto. split; auto. split.
  - rewrite S8, (no_last _ _ ND). reflexivity.
  - split; auto. split; [|split; [rewrite S6; exact HA|rewrite S5; exact HO]]. red in HI. rewrite S7, HI. cbn [option_map]. now rewrite intent_strip by auto.
Qed.
Print Assumptions C162_read_back.
Example C162_read_back_example : parse_fortran_var_decl true false (L "real(kind_phys),    intent(out),  target, optional  :: q(:,:)") =
  Ok [mkDV (L "q") (L "real") false (Some (L "kind_phys")) true false (Some (L "out")) (L "(:,:)")].
Proof. vm_compute. reflexivity. Qed.
(* An optional output argument that is allocatable is declared without optional: the call
   that leaves it out is not allowed. *)
Theorem C162_optional_refuted : exists w, w_optional w = true /\ w_intent w = Some (L "out") /\
  write_def 9 w [] false false true None 0 = Ok (Some (L "real(kind_phys),    allocatable, intent(out)   :: q(:,:)")).
Proof. exists (mkW (w_var ex_q) false (L "real") (L "kind_phys") (Some (L "out")) false false true true false). repeat split; vm_compute; reflexivity. Qed.
Print Assumptions C162_optional_refuted.
(* An optional argument with the property target is declared a target twice. *)
Theorem C162_repeated_target_refuted : exists w t h al e, w_target w = true /\ w_optional w = true /\ w_protected w = false /\
  write_def 9 w [] false false true None 0 = Ok (Some t) /\ declaration h al [e] t /\ ~ once al /\
  t = L "real(kind_phys), target,intent(in),   target, optional  :: q(:,:)".
Proof.
  set (w := mkW (w_var ex_q) false (L "real") (L "kind_phys") (Some (L "in")) false false true false true).
  assert (W : write_def 9 w [] false false true None 0 = Ok (Some (L "real(kind_phys), target,intent(in),   target, optional  :: q(:,:)"))) by (vm_compute; reflexivity).
  assert (N : object_name (w_var w) (L "q")) by (left; split; [apply fname_ident; exists "q"%char, []; repeat split|reflexivity]).
  assert (R : readable_type w (L "real") (Some (L "kind_phys"))) by (apply RT_kind; [reflexivity|right; left; reflexivity|split; [discriminate|split; [reflexivity|discriminate]]]).
  destruct (dummy_line _ _ _ _ _ _ _ _ _ _ N R (fun i (E : declared_intent w None i) => ltac:(unfold declared_intent in E; cbn in E; subst i; cbn; tauto)) W) as (_ & i & x & DI & XI & D & _).
  exists w, (L "real(kind_phys), target,intent(in),   target, optional  :: q(:,:)"). do 3 eexists. split; [reflexivity|]. split; [reflexivity|]. split; [reflexivity|]. split; [exact W|]. split; [exact D|].
  split; [|reflexivity]. unfold declared_intent in DI. cbn in DI. subst i. rewrite (XI eq_refl). intros NDp. red in NDp. inversion NDp as [|? ? NI _]. apply NI. vm_compute. tauto.
Qed.
Print Assumptions C162_repeated_target_refuted.

(* ---- C163: local variables ---- *)
Lemma local_def fuel w d alloc tgt add ext t : (alloc = true \/ v_dims (w_var w) = []) -> write_def fuel w d alloc tgt false add ext = Ok (Some t) ->
  ~ is_const w /\ (alloc = true -> w_protected w = false) /\
  t = definition w ext (local_str (alloc && (negb (match v_dims (w_var w) with [] => true | _ => false end) || w_polymorphic w)) tgt (if alloc then 13 else 20)) (base_name (w_var w)) (match v_dims (w_var w) with [] => [] | _ => colons (v_dims (w_var w)) end).
Proof.
  intros AD. unfold write_def. destruct (str_eqb _ const_one) eqn:C; [discriminate|].
  assert (ED : match v_dims (w_var w) with [] => Ok [] | _ :: _ => if alloc || false then Ok (colons (v_dims (w_var w))) else call_dimstring fuel (w_var w) (Some [d]) false false end = Ok (match v_dims (w_var w) with [] => [] | _ :: _ => colons (v_dims (w_var w)) end)) by (destruct AD as [-> | ->]; [destruct (v_dims (w_var w)); reflexivity|reflexivity]).
  rewrite ED. cbn [bind]. intros H. split; [intros X; apply const_b in X; congruence|].
  destruct (w_protected w && alloc) eqn:PA; [discriminate|]. cbn [bind] in H. apply Ok_eq in H. injection H as <-. split.
  { intros ->. now rewrite andb_true_r in PA. }
  f_equal. unfold intent_str, local_str. rewrite andb_false_r. destruct alloc; cbn [andb]; [|reflexivity]. destruct (v_dims (w_var w)); reflexivity.
Qed.
(* allocated local variables and suite variables, and local scalars *)
Theorem C163_local : forall fuel w d alloc tgt ext t n T K, object_name (w_var w) n -> readable_type w T K ->
  alloc = true \/ v_dims (w_var w) = [] -> write_def fuel w d alloc tgt false None ext = Ok (Some t) ->
  exists h al e, head h T K (w_ddt w) /\ declaration h al [e] t /\
    e_name e = n /\ e_dims e = open_shape (length (v_dims (w_var w))) /\ e_init e = None /\
    no_intent al /\ ~ has "optional" al /\ ~ has "pointer" al /\ (forall a, In a al -> named "dimension" a = false) /\
    (has "allocatable" al <-> alloc = true /\ (v_dims (w_var w) <> [] \/ w_polymorphic w = true)) /\
    (has "target" al <-> w_target w = true \/ (tgt = true /\ has "allocatable" al)) /\
    (polymorphic_type h <-> w_ddt w = true /\ w_polymorphic w = true) /\
    (~ (w_target w = true /\ tgt = true) -> alloc = true \/ w_polymorphic w = false -> legal false h al e).
Proof.
  intros fuel w d alloc tgt ext t n T K N R AD H. apply local_def in H as (_ & PR & ->); auto. destruct (object_base _ _ N) as [B ID]. destruct (head_text w T K R) as [HD NB].
  set (k := if alloc then 13%Z else 20%Z). set (b := alloc && (negb (match v_dims (w_var w) with [] => true | _ => false end) || w_polymorphic w)).
  set (sp := spaces (pad w ext)). set (tl := spaces k ++ L " ").
  assert (BT : blank tl) by (apply blank_ap; [apply spaces_blank|reflexivity]).
  destruct (local_plain w b tgt sp tl (spaces_blank _) BT) as [PL GB].
  assert (BB : b = true <-> alloc = true /\ (v_dims (w_var w) <> [] \/ w_polymorphic w = true)).
  { unfold b. rewrite andb_true_iff, orb_true_iff, negb_true_iff. destruct (v_dims (w_var w)); intuition discriminate. }
  exists (hd_text w), (local_attrs w b tgt sp tl), (mkEnt [] n [] (open_shape (length (v_dims (w_var w)))) [] None). cbn [e_name e_dims e_init].
  split; auto. split.
  { rewrite definition_eq. set (ds := match v_dims (w_var w) with [] => @nil ascii | _ :: _ => colons (v_dims (w_var w)) end).
    assert (TX := local_text w b tgt sp k). fold tl in TX. fold b k sp. rewrite B.
    pose proof (make_declaration (hd_text w) T K (w_ddt w) (local_gap w b sp tl) (local_attrs w b tgt sp tl) n (open_shape (length (v_dims (w_var w)))) [] None HD NB GB PL ID (open_fine _) eq_refl) as M.
    rewrite shape_text in M. fold ds in M. cbn [app] in M. rewrite app_nil_r in M.
    match type of TX with ?l = ?r => replace (hd_text w ++ _) with (hd_text w ++ l ++ n ++ ds) by (rewrite <- !app_assoc; reflexivity) end.
    rewrite TX, <- !app_assoc. apply M. discriminate. }
  split; auto. split; auto. split; auto.
  assert (HA : is_setb "allocatable" (local_attrs w b tgt sp tl) = b) by (unfold local_attrs, targ_attrs; destruct b, (w_target w), tgt; reflexivity).
  assert (HT : is_setb "target" (local_attrs w b tgt sp tl) = w_target w || (tgt && b)) by (unfold local_attrs, targ_attrs; destruct b, (w_target w), tgt; reflexivity).
  assert (HO : is_setb "optional" (local_attrs w b tgt sp tl) = false) by (unfold local_attrs, targ_attrs; destruct b, (w_target w), tgt; reflexivity).
  assert (HP : is_setb "pointer" (local_attrs w b tgt sp tl) = false) by (unfold local_attrs, targ_attrs; destruct b, (w_target w), tgt; reflexivity).
  assert (NI : no_intent (local_attrs w b tgt sp tl)) by (apply no_intent_b; unfold local_attrs, targ_attrs; destruct b, (w_target w), tgt; reflexivity).
  split; auto. split; [rewrite (has_b _ _ _ HO); discriminate|]. split; [rewrite (has_b _ _ _ HP); discriminate|]. split.
  { intros a I. assert (X : forallb (fun a => negb (named "dimension" a)) (local_attrs w b tgt sp tl) = true) by (unfold local_attrs, targ_attrs; destruct b, (w_target w), tgt; reflexivity).
    rewrite forallb_forall in X. apply X in I. now apply negb_true_iff. }
  split; [now rewrite (has_b _ _ _ HA)|]. split.
  { rewrite (has_b _ _ _ HT), (has_b _ _ _ HA), orb_true_iff, andb_true_iff. tauto. }
  split.
  { split; [now apply (head_class w T K)|]. intros [X Y]. unfold hd_text. rewrite X, Y. exists (L "class"), (L "(" ++ w_kind w ++ L ")"). split; reflexivity. }
  intros NT PA. constructor; cbn [e_dims].
  - unfold once, local_attrs, targ_attrs. destruct b, (w_target w), tgt; try (apply nodup_b; reflexivity). elim NT. auto.
  - intros [X|X]; [|tauto]. rewrite (has_b _ _ _ HO) in X. discriminate.
  - intros i X. red in X. unfold last_arg in X. destruct (List.find _ _) as [a|] eqn:E; [|discriminate]. apply List.find_some in E as [I E]. apply in_rev, NI in I. congruence.
  - intros [m M]. right. left. rewrite (has_b _ _ _ HA), BB. destruct (v_dims (w_var w)) as [|y l]; [discriminate|]. destruct AD as [AD|AD]; [|discriminate]. split; auto. left. discriminate.
  - intros Q. destruct (v_dims (w_var w)) as [|y l]; [now left|]. right. now exists (length l).
  - intros X. apply (head_class w T K) in X as [_ X]; auto. right. left. rewrite (has_b _ _ _ HA), BB. destruct PA as [PA|PA]; [auto|congruence].
  - intros [X _]. rewrite (has_b _ _ _ HP) in X. discriminate.
Qed.
Print Assumptions C163_local.
Example C163_example :
  write_def 9 ex_q [] true true false None 0 = Ok (Some (L "real(kind_phys),    allocatable,  target :: q(:,:)")) /\
  write_def 9 (wv "a_flag" "flag" [] "logical" "" None) [] false false false None 0 = Ok (Some (L "logical                                  :: flag")).
Proof. split; vm_compute; reflexivity. Qed.
(* A local scalar that is asked to be a target is not one (nor is an allocated one). *)
Theorem C163_scalar_target_refuted : forall fuel w d alloc ext t n T K, object_name (w_var w) n -> readable_type w T K ->
  v_dims (w_var w) = [] -> w_polymorphic w = false -> w_target w = false ->
  write_def fuel w d alloc true false None ext = Ok (Some t) ->
  exists h al e, head h T K (w_ddt w) /\ declaration h al [e] t /\ ~ has "target" al.
Proof.
  intros fuel w d alloc ext t n T K N R D0 P0 T0 H. destruct (C163_local _ _ _ _ _ _ _ _ _ _ N R (or_intror D0) H) as (h & al & e & HD & D & _ & _ & _ & _ & _ & _ & _ & HA & HT & _).
  exists h, al, e. split; auto. split; auto. rewrite HT, HA, D0, P0, T0. intuition discriminate.
Qed.
Print Assumptions C163_scalar_target_refuted.
(* A local array that is not allocated is declared with a shape without bounds but without
   allocatable or pointer, which Fortran does not allow. *)
Theorem C163_array_refuted : exists d h al e t, write_def 9 ex_q d false false false None 0 = Ok (Some t) /\
  t = L "real(kind_phys)                          :: q(:,:)" /\ head h (L "real") (Some (L "kind_phys")) false /\ declaration h al [e] t /\ ~ legal false h al e.
Proof.
  assert (HD : head (L "real(kind_phys)") (L "real") (Some (L "kind_phys")) false).
  { apply (h_kind (L "real") [] [] (L "kind_phys") []); try reflexivity; [right; left; reflexivity|]. split; [discriminate|split; [reflexivity|discriminate]]. }
  exists [], (L "real(kind_phys)"), [], (mkEnt [] (L "q") [] (open_shape 2) [] None), (L "real(kind_phys)                          :: q(:,:)").
  split; [vm_compute; reflexivity|]. split; [reflexivity|]. split; [exact HD|]. split.
  - apply (make_declaration (L "real(kind_phys)") (L "real") (Some (L "kind_phys")) false (L "                          ") [] (L "q") (open_shape 2) [] None); auto; try reflexivity; try apply open_fine; try discriminate.
    + cbn. intuition discriminate.
    + exists "q"%char, []. repeat split.
  - intros LG. destruct (lg_shape _ _ _ _ LG) as [X|[X|X]]; [now exists 1|discriminate| |]; destruct X as (a & I & _); destruct I.
Qed.
Print Assumptions C163_array_refuted.

(* ---- C164: errors, and the variables that are not declared ---- *)
Theorem C164_outcomes : forall fuel w d alloc tgt dummy add ext, alloc = true \/ dummy = true \/ v_dims (w_var w) = [] ->
  (write_def fuel w d alloc tgt dummy add ext = Ok None <-> is_const w) /\
  (write_def fuel w d alloc tgt dummy add ext = Raise "CCPPError" <->
    ~ is_const w /\ ((w_protected w = true /\ alloc = true) \/ (dummy = true /\ w_intent w = None /\ add = None))) /\
  (~ is_const w -> ~ (w_protected w = true /\ alloc = true) -> ~ (dummy = true /\ w_intent w = None /\ add = None) ->
    exists t, write_def fuel w d alloc tgt dummy add ext = Ok (Some t)).
Proof.
  intros fuel w d alloc tgt dummy add ext AD. unfold write_def. destruct (str_eqb _ const_one) eqn:C.
  { apply const_b in C. split; [tauto|]. split; [|tauto]. split; [discriminate|tauto]. }
  assert (NC : ~ is_const w) by (intros X; apply const_b in X; congruence).
  assert (ED : match v_dims (w_var w) with [] => Ok [] | _ :: _ => if alloc || dummy then Ok (colons (v_dims (w_var w))) else call_dimstring fuel (w_var w) (Some [d]) false false end = Ok (match v_dims (w_var w) with [] => [] | _ :: _ => colons (v_dims (w_var w)) end)).
  { destruct AD as [-> | [-> | ->]]; [destruct (v_dims (w_var w)); reflexivity|rewrite orb_true_r; destruct (v_dims (w_var w)); reflexivity|reflexivity]. }
  rewrite ED. cbn [bind]. destruct (w_protected w), alloc, dummy, (w_intent w), add; cbn [andb bind];
    (split; [split; [discriminate|tauto]|]); (split; [split; [intros X; try discriminate X; intuition|intros [_ X]; intuition discriminate]|]); intros _ X Y; try (eexists; reflexivity); try (elim X; split; reflexivity); elim Y; auto.
Qed.
Print Assumptions C164_outcomes.
Example C164_example :
  write_def 9 (wv "s" "s" [] "integer" "" None) [] false false true None 0 = Raise "CCPPError" /\
  write_def 9 (wv "s" "s" [] "integer" "" None) [] false false true (Some (L "out")) 0 = Ok (Some (L "integer,            intent(out)   :: s")).
Proof. split; vm_compute; reflexivity. Qed.
(* the variable a chain of structures ends with *)
Inductive ends_with : wobj -> wvar -> Prop :=
| EW_var w : ends_with (WV w) w
| EW_ddt r o w : ends_with o w -> ends_with (WD r o) w.
Lemma write_end o w : ends_with o w -> forall fuel d a tgt du add ext, write_obj fuel o d a tgt du add ext = write_def fuel w d a tgt du add ext.
Proof. induction 1; intros; [reflexivity|]. cbn [write_obj]. auto. Qed.
(* A dictionary declares its variables one by one, in order, except the constant one. *)
Theorem C164_declare : forall fuel vars ws d l, Forall2 ends_with vars ws ->
  declare_variables fuel vars d true = Ok l <->
  Forall2 (fun w t => write_def fuel w d false false true None 0 = Ok (Some t)) (List.filter (fun w => negb (str_eqb (v_std (w_var w)) (L "ccpp_constant_one"))) ws) l.
Proof.
  intros fuel vars ws d l F. revert l. induction F as [|o w vars ws E F IH]; intros l; cbn [declare_variables List.filter].
  - split; [intros H; apply Ok_eq in H; subst; constructor|intros H; inversion H; reflexivity].
  - rewrite (write_end _ _ E). destruct (C164_outcomes fuel w d false false true None 0 (or_intror (or_introl eq_refl))) as (O1 & O2 & O3).
    destruct (str_eqb (v_std (w_var w)) (L "ccpp_constant_one")) eqn:C; cbn [negb].
    + assert (X : is_const w) by (apply str_eqb_eq in C; exact C). apply O1 in X. rewrite X. cbn [bind]. rewrite <- IH. destruct (declare_variables fuel vars d true); cbn [bind]; split; intros H; auto.
    + assert (NC : ~ is_const w) by (apply str_eqb_neq in C; exact C). split.
      * intros H. destruct (write_def fuel w d false false true None 0) as [[t|]|m] eqn:W; cbn [bind] in H; [|elim NC; now apply O1|discriminate].
        destruct (declare_variables fuel vars d true) as [l'|m] eqn:DV; cbn [bind] in H; [|discriminate]. apply Ok_eq in H. subst l. constructor; [exact W|]. now apply IH.
      * intros H. inversion H as [|? t ? l' W F']; subst. rewrite W. cbn [bind]. apply IH in F'. rewrite F'. reflexivity.
Qed.
Print Assumptions C164_declare.
Example C164_declare_example :
  declare_variables 9 [WV (wv "ccpp_constant_one" "1" [] "integer" "" (Some (L "in"))); WD (wv "physics_state" "state" [] "" "" None) (WV ex_q)] [] true =
  Ok [L "real(kind_phys),    intent(inout) :: q(:,:)"].
Proof. vm_compute. reflexivity. Qed.

(* ---- C165: the pointers of optional variables ---- *)
Theorem C165_pointer : forall w T K, identifier (v_local (w_var w)) -> readable_type w T K ->
  exists h al e, head h T K (w_ddt w) /\ declaration h al [e] (pointer_def w) /\
    e_name e = v_local (w_var w) ++ L "_ptr" /\ e_dims e = open_shape (length (v_dims (w_var w))) /\ e_init e = Some (L "> null()") /\
    has "pointer" al /\ no_intent al /\ (forall a, In a al -> named "dimension" a = false) /\ legal false h al e.
Proof.
  intros w T K N R. set (w0 := mkW (w_var w) (w_ddt w) (w_type w) (w_kind w) (w_intent w) (w_protected w) false (w_optional w) (w_allocatable w) (w_target w)).
  assert (R0 : readable_type w0 T K) by (destruct R as [D I E|D I E|le l D S1 S2 LV E|D I]; [exact (RT_plain w0 D I E)|exact (RT_kind w0 D I E)|exact (RT_len w0 le l D S1 S2 LV E)|exact (RT_ddt w0 D I)]).
  destruct (head_text w0 T K R0) as [HD NB]. set (nm := v_local (w_var w) ++ L "_ptr").
  set (ds := match v_dims (w_var w) with [] => @nil ascii | _ :: _ => colons (v_dims (w_var w)) end).
  set (vt := if w_ddt w then L "type" else w_type w).
  set (sp := spaces (if negb (str_eqb (w_kind w) []) then 0 + 20 - len vt - len (w_kind w) else (0 + 22 - len vt))).
  set (al := [mkAttr (L " " ++ sp) (L "pointer") [] None (L "          ")]).
  set (aft := spaces (20 - len nm - len ds) ++ L " ").
  assert (PL : Forall plain_attr al) by (apply Forall_cons; [|apply Forall_nil]; apply plain_none; [apply blank_ap; [reflexivity|apply spaces_blank]|reflexivity|cbn; tauto]).
  assert (ID : identifier nm).
  { destruct N as (c & t & E & A & W). exists c, (t ++ L "_ptr"). unfold nm. rewrite E. split; [reflexivity|]. split; auto. now rewrite forallb_app, W. }
  assert (BA : blank aft) by (apply blank_ap; [apply spaces_blank|reflexivity]).
  exists (hd_text w0), al, (mkEnt [] nm [] (open_shape (length (v_dims (w_var w)))) aft (Some (L "> null()"))). cbn [e_name e_dims e_init].
  split; [exact HD|]. split.
  { assert (IN : init_fine (Some (L "> null()"))).
    { intros x X. assert (x = L "> null()") by (now injection X). subst x. clear X. split; [split; [reflexivity|]|].
      - intros p q E _. assert (X : In ","%char (L "> null()")) by (rewrite E; apply in_app_iff; right; now left). cbn in X. intuition discriminate.
      - cbn. intuition discriminate. }
    pose proof (make_declaration (hd_text w0) T K (w_ddt w0) [] al nm (open_shape (length (v_dims (w_var w)))) aft (Some (L "> null()")) HD NB eq_refl PL ID (open_fine _) BA IN) as M.
    rewrite shape_text in M. fold ds in M. cbn [app] in M.
    assert (E : pointer_def w = hd_text w0 ++ attrs_text al ++ L ":: " ++ nm ++ ds ++ aft ++ L "=" ++ L "> null()"); [|rewrite E; exact M].
    assert (KN : w_ddt w = true -> str_eqb (w_kind w) [] = false) by (intros D; apply str_eqb_neq; destruct R as [D' _ _|D' _ _|? ? D' _ _ _ _|_ (c & t & EQ & _)]; [congruence|congruence|congruence|rewrite EQ; discriminate]).
    unfold pointer_def, write_ptr_def, hd_text. cbn [w_ddt w_polymorphic w_kind w_type w0]. change (match v_dims (w_var w) with [] => [] | _ => colons (v_dims (w_var w)) end) with ds. fold nm vt.
    unfold al, attrs_text, attr_text, aft, sp. cbn [map List.concat a_before a_name a_gap a_arg a_after app].
    destruct (w_ddt w) eqn:D; [rewrite (KN eq_refl)|destruct (str_eqb (w_kind w) [])]; cbn [negb]; unfold vt; rewrite ?app_nil_r, <- ?app_assoc; cbn [app]; rewrite <- ?app_assoc; reflexivity. }
  split; auto. split; auto. split; auto.
  assert (HP : has "pointer" al) by (eexists; split; [left; reflexivity|split; reflexivity]).
  assert (NI : no_intent al) by (intros a [<-|[]]; reflexivity).
  split; auto. split; auto. split; [intros a [<-|[]]; reflexivity|]. constructor; cbn [e_dims].
  - unfold once. apply nodup_b. reflexivity.
  - intros [X|X]; [|tauto]. apply is_set_b in X. discriminate.
  - discriminate.
  - intros _. right. now right.
  - intros X. apply is_set_b in X. discriminate.
  - intros _. right. now right.
  - intros [_ [X|[X|X]]]; [apply is_set_b in X; discriminate|apply is_set_b in X; discriminate|tauto].
Qed.
Print Assumptions C165_pointer.
Theorem C165_read_back : forall logger w T K, identifier (v_local (w_var w)) -> readable_type w T K ->
  exists v, parse_fortran_var_decl true logger (pointer_def w) = Ok [v] /\
    dv_name v = v_local (w_var w) ++ L "_ptr" /\ dv_type v = T /\ dv_kind v = K /\ dv_ddt v = w_ddt w /\ dv_intent v = None /\
    dv_dims v = match open_shape (length (v_dims (w_var w))) with Some x => L "(" ++ x ++ L ")" | None => L "()" end.
Proof.
  intros logger w T K N R. destruct (C165_pointer w T K N R) as (h & al & e & HD & D & EN & ED & _ & _ & NI & ND & _).
  destruct (C113_declaration logger h T K (w_ddt w) al [e] (pointer_def w) HD D) as (vs & P & F). inversion F as [|? v ? vs' SV F']; subst. inversion F'; subst. exists v. split; auto.
  destruct SV as (S1 & S2 & S3 & S4 & S5 & S6 & S7 & S8). rewrite EN in S1. rewrite ED, (no_last _ _ ND) in S8. rewrite (no_last _ _ NI) in S7. repeat split; auto.
Qed.
Print Assumptions C165_read_back.
Example C165_example : pointer_def ex_opt = L "real(kind_phys),        pointer          :: q_ptr(:,:)           => null()".
Proof. vm_compute. reflexivity. Qed.
