(* Properties of the generated host cap: C126-C129. *)
From Coq Require Import List Ascii String Bool Arith ZArith Lia Sorting.Permutation.
Import ListNotations.
From Verif Require Import PyStr ReqModel ReqProofs DfSpec DfProps HcModel HcSpec HcProofs HcArgs.
Open Scope string_scope.
Open Scope list_scope.
Open Scope nat_scope.

(* ===== example configuration ===== *)

Definition x_err : dummy := mkD (L "ccpp_error_code") (L "errflg") (L "integer") false false.
Definition x_t : dummy := mkD (L "temperature") (L "temp") (L "real") false false.
Definition x_q : dummy := mkD (L "specific_humidity") (L "q") (L "real") false false.
Definition x_one : dummy := mkD (L "ccpp_constant_one") (L "one") (L "integer") false true.
Definition x_beg : dummy := mkD (L "horizontal_loop_begin") (L "ib") (L "integer") true false.
Definition x_dyn (n : str) : dummy := mkD n (n ++ L "_l") (L "ccpp_constituent_properties_t") false false.
Definition x_host : hostdicts :=
  mkH (fun n => if str_eqb n (L "temperature") then Some (L "state%t")
                else if str_eqb n (L "ccpp_error_code") then Some (L "ierr")
                else if str_eqb n (L "horizontal_loop_begin") then Some (L "col_start")
                else if str_eqb n (L "ccpp_constant_one") then Some (L "1") else None)
      (fun n => if str_eqb n (L "specific_humidity") then Some (L "q_array(:,:,1)") else None).
Definition x_suite (n : str) (rt : list dummy) (gs : list str) : suite :=
  mkS n (fun t => match t with Reg => (x_err :: rt, []) | _ => ([x_err], [L "setup"]) end)
      (map (fun g => (g, ([x_err; x_t; x_q; x_beg; x_one], [g ++ L "_scheme"; L "rad"]))) gs).
Definition x_ss : list suite :=
  [x_suite (L "cam7") [x_dyn (L "tracers")] [L "physics_before"; L "physics_after"];
   x_suite (L "kessler") [] [L "micro"]].
Definition quiet : @callee nat := fun _ => (0%Z, []).

Definition ok_or {T} (d : T) (r : res T) : T := match r with Ok x => x | Raise _ => d end.
Definition x_lines (t : stage) : list line := ok_or [] (stage_lines x_host x_ss t).

(* ===== C126: dispatch ===== *)

Lemma run_exact : forall (A : Type) (w : @callee A) k h ss lines sn pn s g e n m,
  stage_lines h ss Run = Ok lines -> (forall s, In s ss -> has_part s) ->
  chosen_suite ss sn s -> chosen_group s pn g ->
  exists args, suite_part_call_list h (mk_part s g) true false = Ok args /\
    exec w k (args2 sn pn) [] (start e n m) lines
    = Some (do_call w (s_name s ++ L "_" ++ fst g) args (cleared (start e n m))).
Proof.
  intros A w k h ss lines sn pn s g e n m H Hp Hs Hg.
  destruct (stage_body _ _ _ _ _ _ H Hs) as (locals & b & Hl & Hb).
  destruct (run_body_hit w k (args2 sn pn) h (map snd locals) s b (cleared (start e n m)) g [mkF true true true false] Hb Hg eq_refl)
    as (args & Ha & _).
  exists args. split; [exact Ha|].
  apply (stage_hit w k (args2 sn pn) h ss Run lines s sn (start e n m) (Some (do_call w (s_name s ++ L "_" ++ fst g) args (cleared (start e n m)))) b locals H Hl (fun _ => Hp) eq_refl Hs eq_refl Hb).
  intros f q Ho Ht Hc He. exists f. repeat split; try assumption.
  destruct (run_body_hit w k (args2 sn pn) h (map snd locals) s b (cleared (start e n m)) g [f] Hb Hg) as (args' & Ha' & E);
    [unfold live; now rewrite Hc|]. rewrite Ha in Ha'. injection Ha' as <-. apply E.
Qed.

Theorem C126_run : forall (A : Type) (w : @callee A) k h ss lines sn pn s g e n m,
  stage_lines h ss Run = Ok lines -> (forall s, In s ss -> has_part s) ->
  chosen_suite ss sn s -> chosen_group s pn g ->
  exists st args,
    exec w k (args2 sn pn) [] (start e n m) lines = Some st /\
    st_calls st = [(s_name s ++ L "_" ++ fst g, args)] /\
    st_err st = fst (w (s_name s ++ L "_" ++ fst g)) /\
    st_mod st = m /\
    In (L "ccpp_" ++ s_name s ++ L "_cap", s_name s ++ L "_" ++ fst g) (stage_uses ss Run).
Proof.
  intros A w k h ss lines sn pn s g e n m H Hp Hs Hg.
  destruct (run_exact A w k h ss lines sn pn s g e n m H Hp Hs Hg) as (args & _ & E).
  rewrite E. unfold do_call. destruct (w (s_name s ++ L "_" ++ fst g)). eexists. exists args. split; [reflexivity|].
  split; [reflexivity|]. split; [reflexivity|]. split; [reflexivity|].
  unfold stage_uses. apply in_concat. destruct Hs as (bf & af & -> & _ & _). destruct Hg as (b1 & a1 & Eg & (Hn & _) & _).
  eexists. split; [apply in_map; apply in_or_app; right; now left|]. cbn [suite_part_list]. rewrite run_groups, map_map.
  apply in_map_iff. exists g. split; [reflexivity|]. apply in_own. split; [rewrite Eg; apply in_or_app; right; now left|exact Hn].
Qed.
Print Assumptions C126_run.
Example C126_run_nonvacuous :
  stage_lines x_host x_ss Run = Ok (x_lines Run) /\ (forall s, In s x_ss -> has_part s) /\
  chosen_suite x_ss (L "kessler   ") (x_suite (L "kessler") [] [L "micro"]) /\
  chosen_group (x_suite (L "kessler") [] [L "micro"]) (L "micro ") (L "micro", ([x_err; x_t; x_q; x_beg; x_one], [L "micro_scheme"; L "rad"])) /\
  option_map st_calls (exec quiet 8 (args2 (L "kessler   ") (L "micro ")) [] (start 0 0 (fun _ => None)) (x_lines Run))
  = Some [(L "kessler_micro", [(L "errflg", L "ierr"); (L "temp", L "state%t"); (L "q", L "q_array(:,:,1)"); (L "ib", L "col_start")])].
Proof.
  split; [vm_compute; reflexivity|]. split.
  { intros s [<-|[<-|[]]]; unfold has_part; cbn [s_groups x_suite map].
    - eexists. split; [left; reflexivity|]. cbn. intuition discriminate.
    - eexists. split; [left; reflexivity|]. cbn. intuition discriminate. }
  split.
  { exists [x_suite (L "cam7") [x_dyn (L "tracers")] [L "physics_before"; L "physics_after"]], []. split; [reflexivity|]. split.
    - exists (L "kessler"), 3, 0. split; reflexivity.
    - intros y [<-|[]] H. apply blank_eq_spec in H. vm_compute in H. discriminate. }
  split.
  { exists [], []. split; [reflexivity|]. split; [|intros y []]. split; [cbn; intuition discriminate|].
    exists (L "micro"), 1, 0. split; reflexivity. }
  vm_compute. reflexivity.
Qed.

Definition phase_stage (t : stage) : Prop := t = Ini \/ t = TIni \/ t = TFin \/ t = Fin.

Lemma stage_exact : forall (A : Type) (w : @callee A) k h ss t lines sn pn s e n m,
  phase_stage t -> stage_lines h ss t = Ok lines -> chosen_suite ss sn s ->
  exists args, suite_part_call_list h (phase_group s t) false false = Ok args /\
    exec w k (args2 sn pn) [] (start e n m) lines
    = Some (do_call w (s_name s ++ L "_" ++ stage_name t) args (cleared (start e n m))).
Proof.
  intros A w k h ss t lines sn pn s e n m Hphase H Hs.
  destruct (stage_body _ _ _ _ _ _ H Hs) as (locals & b & Hl & Hb).
  assert (Hb' : exists args, suite_part_call_list h (phase_group s t) false false = Ok args /\ b = [LCall (s_name s ++ L "_" ++ stage_name t) args]).
  { destruct Hphase as [->|[->|[->| ->]]]; unfold suite_body in Hb; apply bind_inv in Hb; destruct Hb as (args & Ha & Hb);
      injection Hb as <-; exists args; split; try reflexivity; exact Ha. }
  destruct Hb' as (args & Ha & Eb). exists args. split; [exact Ha|].
  apply (stage_hit w k (args2 sn pn) h ss t lines s sn (start e n m) (Some (do_call w (s_name s ++ L "_" ++ stage_name t) args (cleared (start e n m)))) b locals H Hl); auto.
  { intros ->. destruct Hphase as [E|[E|[E|E]]]; discriminate. }
  intros f q Ho Ht Hc He. exists f. repeat split; try assumption. rewrite Eb. cbn [app].
  rewrite exec_plain by reflexivity. unfold live. rewrite Hc. reflexivity.
Qed.

Theorem C126_stage : forall (A : Type) (w : @callee A) k h ss t lines sn pn s e n m,
  phase_stage t -> stage_lines h ss t = Ok lines -> chosen_suite ss sn s ->
  exists st args,
    exec w k (args2 sn pn) [] (start e n m) lines = Some st /\
    st_calls st = [(s_name s ++ L "_" ++ stage_name t, args)] /\
    st_err st = fst (w (s_name s ++ L "_" ++ stage_name t)) /\
    st_mod st = m /\
    In (L "ccpp_" ++ s_name s ++ L "_cap", s_name s ++ L "_" ++ stage_name t) (stage_uses ss t).
Proof.
  intros A w k h ss t lines sn pn s e n m Hphase H Hs.
  destruct (stage_exact A w k h ss t lines sn pn s e n m Hphase H Hs) as (args & _ & E).
  rewrite E. unfold do_call. destruct (w (s_name s ++ L "_" ++ stage_name t)). eexists. exists args. split; [reflexivity|].
  split; [reflexivity|]. split; [reflexivity|]. split; [reflexivity|].
  unfold stage_uses. apply in_concat. destruct Hs as (bf & af & -> & _ & _).
  eexists. split; [apply in_map; apply in_or_app; right; now left|].
  apply in_map_iff. exists (phase_group s t). split; [reflexivity|].
  destruct Hphase as [->|[->|[->| ->]]]; now left.
Qed.
Print Assumptions C126_stage.
Example C126_stage_nonvacuous :
  phase_stage TFin /\ stage_lines x_host x_ss TFin = Ok (x_lines TFin) /\
  chosen_suite x_ss (L "cam7") (x_suite (L "cam7") [x_dyn (L "tracers")] [L "physics_before"; L "physics_after"]) /\
  option_map st_calls (exec quiet 8 (args2 (L "cam7") []) [] (start 0 0 (fun _ => None)) (x_lines TFin))
  = Some [(L "cam7_timestep_final", [(L "errflg", L "ierr")])].
Proof.
  split; [right; right; now left|]. split; [vm_compute; reflexivity|]. split.
  { eexists [], _. split; [reflexivity|]. split; [apply same_refl|intros y []]. }
  vm_compute. reflexivity.
Qed.

(* An unknown suite, in any stage: the error flag is set, nothing is called and no
   array of the module changes. *)
Theorem C126_unknown_suite : forall (A : Type) (w : @callee A) k h ss t lines sn pn e n m,
  stage_lines h ss t = Ok lines -> ss <> [] -> (t = Run -> forall s, In s ss -> has_part s) ->
  (forall s, In s ss -> ~ same sn (s_name s)) ->
  exists st, exec w k (args2 sn pn) [] (start e n m) lines = Some st /\
    st_calls st = [] /\ st_err st = 1%Z /\ st_mod st = m.
Proof.
  intros A w k h ss t lines sn pn e n m H Hss Hp Hn.
  rewrite (stage_miss w k (args2 sn pn) h ss t lines (start e n m) H Hss Hp Hn eq_refl).
  eexists. split; [reflexivity|]. repeat split.
Qed.
Print Assumptions C126_unknown_suite.
Example C126_unknown_suite_nonvacuous :
  stage_lines x_host x_ss Reg = Ok (x_lines Reg) /\
  (forall s, In s x_ss -> ~ same (L "cam") (s_name s)) /\
  option_map st_err (exec quiet 8 (args2 (L "cam") []) [] (start 0 0 (fun _ => None)) (x_lines Reg)) = Some 1%Z.
Proof.
  split; [vm_compute; reflexivity|]. split; [|vm_compute; reflexivity].
  intros s [<-|[<-|[]]] H; apply blank_eq_spec in H; vm_compute in H; discriminate.
Qed.

(* A known suite without such a part: likewise. *)
Theorem C126_unknown_part : forall (A : Type) (w : @callee A) k h ss lines sn pn s e n m,
  stage_lines h ss Run = Ok lines -> (forall s, In s ss -> has_part s) ->
  chosen_suite ss sn s ->
  (forall g, In g (s_groups s) -> ~ In (fst g) phase_names -> ~ same pn (fst g)) ->
  exists st, exec w k (args2 sn pn) [] (start e n m) lines = Some st /\
    st_calls st = [] /\ st_err st = 1%Z /\ st_mod st = m.
Proof.
  intros A w k h ss lines sn pn s e n m H Hp Hs Hn.
  destruct (stage_body _ _ _ _ _ _ H Hs) as (locals & b & Hl & Hb).
  exists (set_err (start e n m) 1). split; [|repeat split].
  apply (stage_hit w k (args2 sn pn) h ss Run lines s sn (start e n m) (Some (set_err (start e n m) 1)) b locals H Hl (fun _ => Hp) eq_refl Hs eq_refl Hb).
  intros f q Ho Ht Hc He. exists f. repeat split; try assumption.
  rewrite (run_body_miss w k (args2 sn pn) h (map snd locals) s b (cleared (start e n m)) [f] Hb); [reflexivity| | |exact Hn].
  - apply Hp. destruct Hs as (bf & af & -> & _ & _). apply in_or_app. right. now left.
  - unfold live. now rewrite Hc.
Qed.
Print Assumptions C126_unknown_part.
Example C126_unknown_part_nonvacuous :
  option_map st_err (exec quiet 8 (args2 (L "kessler") (L "physics_after")) [] (start 0 0 (fun _ => None)) (x_lines Run)) = Some 1%Z /\
  (forall g, In g (s_groups (x_suite (L "kessler") [] [L "micro"])) -> ~ In (fst g) phase_names -> ~ same (L "physics_after") (fst g)).
Proof.
  split; [vm_compute; reflexivity|]. intros g [<-|[]] _ H. apply blank_eq_spec in H. vm_compute in H. discriminate.
Qed.

(* Finding: a group of the suite file named like a phase is never called: the run stage
   reports that there is no such part, whatever the suite. *)
Theorem C126_phase_name_refuted : forall (A : Type) (w : @callee A) k h ss lines sn s g e n m,
  stage_lines h ss Run = Ok lines -> (forall s, In s ss -> has_part s) ->
  chosen_suite ss sn s -> In g (s_groups s) -> In (fst g) phase_names ->
  (forall g', In g' (s_groups s) -> same (fst g) (fst g') -> fst g' = fst g) ->
  exists st, exec w k (args2 sn (fst g)) [] (start e n m) lines = Some st /\ st_calls st = [] /\ st_err st = 1%Z.
Proof.
  intros A w k h ss lines sn s g e n m H Hp Hs Hg Hph Hu.
  destruct (C126_unknown_part A w k h ss lines sn (fst g) s e n m H Hp Hs) as (st & H1 & H2 & H3 & _).
  - intros g' Hg' Hn Sm. apply Hn. rewrite (Hu g' Hg' Sm). exact Hph.
  - exists st. auto.
Qed.
Print Assumptions C126_phase_name_refuted.
Definition x_bad : list suite := [x_suite (L "s") [] [L "finalize"; L "a"]].
Example C126_phase_name_nonvacuous :
  option_map st_err (exec quiet 8 (args2 (L "s") (L "finalize")) [] (start 0 0 (fun _ => None))
                          (ok_or [] (stage_lines x_host x_bad Run))) = Some 1%Z /\
  option_map st_err (exec quiet 8 (args2 (L "s") (L "a")) [] (start 0 0 (fun _ => None))
                          (ok_or [] (stage_lines x_host x_bad Run))) = Some 0%Z.
Proof. split; vm_compute; reflexivity. Qed.

(* Finding: if all groups of a suite are named like phases, the run subroutine is not
   Fortran (an else without an if), whatever suite is asked for. *)
Theorem C126_no_part_refuted :
  exists ss lines, stage_lines x_host ss Run = Ok lines /\
    (forall s, In s ss -> s_groups s <> []) /\
    forall (A : Type) (w : @callee A) k val st, exec w k val [] st lines = None.
Proof.
  exists [x_suite (L "s") [] [L "finalize"]]. eexists. split; [vm_compute; reflexivity|]. split.
  - intros s [<-|[]]. discriminate.
  - intros A w k val st. cbn [exec exec1]. repeat match goal with |- context [if ?b then _ else _] => destruct b end; reflexivity.
Qed.
Print Assumptions C126_no_part_refuted.

(* Finding: two suites whose names and group names join to the same subroutine name:
   the run subroutine imports one name from two modules. *)
Theorem C126_ambiguous_refuted :
  exists ss s1 s2 g1 g2, In s1 ss /\ In s2 ss /\ s_name s1 <> s_name s2 /\
    In g1 (s_groups s1) /\ In g2 (s_groups s2) /\
    (forall s, In s ss -> NoDup (map fst (s_groups s))) /\
    (exists lines, stage_lines x_host ss Run = Ok lines) /\
    In (L "ccpp_" ++ s_name s1 ++ L "_cap", s_name s1 ++ L "_" ++ fst g1) (stage_uses ss Run) /\
    In (L "ccpp_" ++ s_name s2 ++ L "_cap", s_name s2 ++ L "_" ++ fst g2) (stage_uses ss Run) /\
    s_name s1 ++ L "_" ++ fst g1 = s_name s2 ++ L "_" ++ fst g2.
Proof.
  exists [x_suite (L "a") [] [L "b_c"]; x_suite (L "a_b") [] [L "c"]], (x_suite (L "a") [] [L "b_c"]), (x_suite (L "a_b") [] [L "c"]).
  do 2 eexists. split; [now left|]. split; [right; now left|]. split; [discriminate|].
  split; [left; reflexivity|]. split; [left; reflexivity|]. split.
  { intros s [<-|[<-|[]]]; cbn; repeat constructor; intros []. }
  split; [eexists; vm_compute; reflexivity|]. split; [vm_compute; tauto|]. split; [vm_compute; tauto|]. reflexivity.
Qed.
Print Assumptions C126_ambiguous_refuted.

(* ===== C127: arguments ===== *)

(* The stage is generated iff every dummy argument of every part is a variable of the
   host or a constituent, and constituent property arrays occur only in the register
   stage, each with a standard name and local name of its own. *)
Theorem C127_generated : forall h ss t,
  (exists lines, stage_lines h ss t = Ok lines) <->
  (forall s name ds d, In s ss -> part_of s t name ds -> In d ds ->
     d_type d = L "ccpp_constituent_properties_t" -> t = Reg) /\
  (forall s name ds d, In s ss -> part_of s t name ds -> In d ds ->
     d_type d <> L "ccpp_constituent_properties_t" ->
     h_host h (d_std d) <> None \/ h_cons h (d_std d) <> None) /\
  (t = Reg -> NoDup (map d_std (List.concat (map runtime ss))) /\
              NoDup (map d_lname (List.concat (map runtime ss)))).
Proof. exact generated. Qed.
Print Assumptions C127_generated.
Example C127_generated_nonvacuous :
  (exists lines, stage_lines x_host x_ss Reg = Ok lines) /\
  stage_lines x_host [x_suite (L "a") [x_dyn (L "d")] [L "g"]; x_suite (L "b") [x_dyn (L "d")] [L "g"]] Reg = Raise "ParseSyntaxError" /\
  stage_lines (mkH (fun _ => None) (fun _ => None)) x_ss Run = Raise "CCPPError".
Proof. split; [eexists; vm_compute; reflexivity|]. split; vm_compute; reflexivity. Qed.

(* Whatever is called is a part of the chosen suite, and gets each of its dummy
   arguments once, by keyword. *)
Lemma group_choice : forall s pn,
  (exists g, chosen_group s pn g) \/
  (forall g, In g (s_groups s) -> ~ In (fst g) phase_names -> ~ same pn (fst g)).
Proof.
  intros s pn. unfold chosen_group, first. induction (s_groups s) as [|g l IH]; [right; intros g []|].
  destruct (negb (mem (fst g) phase_names) && blank_eq pn (fst g)) eqn:E.
  - left. apply andb_true_iff in E. destruct E as [E1 E2]. apply negb_true_iff, mem_not in E1. apply blank_eq_spec in E2.
    exists g, [], l. split; [reflexivity|]. split; [split; assumption|intros y []].
  - assert (N : ~ (~ In (fst g) phase_names /\ same pn (fst g))).
    { intros [N1 N2]. rewrite (proj2 (mem_not _ _) N1), (proj2 (blank_eq_spec _ _) N2) in E. discriminate. }
    destruct IH as [(g' & b & a & -> & Hg' & Hb)|IH].
    + left. exists g', (g :: b), a. split; [reflexivity|]. split; [exact Hg'|]. intros y [<-|Hy]; [exact N|now apply Hb].
    + right. intros g' [<-|Hg'] Hn Sm; [apply N; split; assumption|now apply (IH g' Hg' Hn)].
Qed.

Theorem C127_arguments : forall (A : Type) (w : @callee A) k h ss t lines sn pn s e n m st,
  stage_lines h ss t = Ok lines -> t <> Reg -> (t = Run -> forall s, In s ss -> has_part s) ->
  chosen_suite ss sn s ->
  exec w k (args2 sn pn) [] (start e n m) lines = Some st ->
  (t <> Run -> forall d, In d (fst (s_phase s t)) -> d_loop d = false) ->
  forall name args, In (name, args) (st_calls st) ->
  exists ds, part_of s t name ds /\ Forall2 (passes h) (real_dummies ds) args.
Proof.
  intros A w k h ss t lines sn pn s e n m st H Ht Hp Hs Hx Hloop name args Hin.
  assert (Hss : In s ss) by (destruct Hs as (bf & af & -> & _ & _); apply in_or_app; right; now left).
  assert (G := proj1 (generated h ss t) (ex_intro _ lines H)). destruct G as (G1 & _ & _).
  assert (P : forall nm p dyn loop args, part_of s t nm (p_dummies p) -> (loop = true \/ forall d, In d (p_dummies p) -> d_loop d = false) ->
              suite_part_call_list h p loop dyn = Ok args -> Forall2 (passes h) (real_dummies (p_dummies p)) args).
  { intros nm p dyn loop ar Hpo Hlo Ha. unfold suite_part_call_list in Ha.
    assert (E : variable_list loop (p_dummies p) = p_dummies p).
    { destruct Hlo as [->|Hlo]; [apply variable_list_all|]. rewrite <- (variable_list_all (p_dummies p)) at 2.
      unfold variable_list. apply filter_ext_in. intros d Hd. now rewrite (Hlo d Hd). }
    rewrite E in Ha. apply (call_args_passes h dyn); [exact Ha|]. intros d Hd Hpt. exfalso. apply Ht. apply (G1 s nm (p_dummies p) d); auto. }
  assert (C : t = Run \/ phase_stage t) by (destruct t; [contradiction|right|right|now left|right|right]; unfold phase_stage; tauto).
  destruct C as [->|C].
  - destruct (group_choice s pn) as [(g & Hg)|Hno].
    + destruct (run_exact A w k h ss lines sn pn s g e n m H (Hp eq_refl) Hs Hg) as (ar & Ha & E).
      rewrite E in Hx. injection Hx as <-. unfold do_call in Hin. destruct (w _) in Hin. cbn in Hin. destruct Hin as [Ei|[]].
      injection Ei as <- <-. destruct Hg as (b1 & a1 & Eg & (Hn & _) & _).
      assert (Hpo : part_of s Run (s_name s ++ L "_" ++ fst g) (p_dummies (mk_part s g))).
      { exists g. split; [rewrite Eg; apply in_or_app; right; now left|]. split; [exact Hn|]. split; reflexivity. }
      exists (p_dummies (mk_part s g)). split; [exact Hpo|]. apply (P _ _ _ _ _ Hpo (or_introl eq_refl) Ha).
    + destruct (C126_unknown_part A w k h ss lines sn pn s e n m H (Hp eq_refl) Hs Hno) as (st' & E & Hc & _).
      rewrite E in Hx. injection Hx as <-. rewrite Hc in Hin. destruct Hin.
  - destruct (stage_exact A w k h ss t lines sn pn s e n m C H Hs) as (ar & Ha & E).
    rewrite E in Hx. injection Hx as <-. unfold do_call in Hin. destruct (w _) in Hin. cbn in Hin. destruct Hin as [Ei|[]].
    injection Ei as <- <-.
    assert (Hpo : part_of s t (s_name s ++ L "_" ++ stage_name t) (p_dummies (phase_group s t))).
    { destruct C as [->|[->|[->| ->]]]; split; reflexivity. }
    exists (p_dummies (phase_group s t)). split; [exact Hpo|]. apply (P _ (phase_group s t) false false ar Hpo); [|exact Ha].
    right. apply Hloop. intros ->. destruct C as [E'|[E'|[E'|E']]]; discriminate.
Qed.
Print Assumptions C127_arguments.
(* Non-vacuity: see C126_run_nonvacuous, where the four non-constant arguments are
   passed; here in a phase stage. *)
Example C127_arguments_nonvacuous :
  option_map st_calls (exec quiet 8 (args2 (L "kessler") []) [] (start 0 0 (fun _ => None)) (x_lines Ini))
  = Some [(L "kessler_initialize", [(L "errflg", L "ierr")])] /\
  passes x_host x_q (L "q", L "q_array(:,:,1)") /\ passes x_host x_t (L "temp", L "state%t").
Proof.
  split; [vm_compute; reflexivity|]. split; (split; [reflexivity|]); split; try discriminate; intros _; [right|left]; try split; reflexivity.
Qed.

(* Finding: a loop variable that is a dummy argument of a phase other than run is not
   passed, although the subroutine of the phase declares it. *)
Theorem C127_loop_refuted :
  exists ss lines, stage_lines x_host ss Ini = Ok lines /\
  exists s, chosen_suite ss (L "s") s /\
  In (L "ib") (map d_lname (real_dummies (fst (s_phase s Ini)))) /\
  (forall d, In d (fst (s_phase s Ini)) -> h_host x_host (d_std d) <> None) /\
  exists st args, exec quiet 8 (args2 (L "s") []) [] (start 0 0 (fun _ => None)) lines = Some st /\
    st_calls st = [(L "s_initialize", args)] /\ ~ In (L "ib") (map fst args).
Proof.
  set (s := mkS (L "s") (fun t => ([x_err; x_beg], [])) [(L "g", ([x_err], []))]).
  exists [s]. eexists. split; [vm_compute; reflexivity|]. exists s. split.
  { exists [], []. split; [reflexivity|]. split; [apply same_refl|intros y []]. }
  split; [right; now left|]. split; [intros d [<-|[<-|[]]]; discriminate|].
  do 2 eexists. split; [vm_compute; reflexivity|]. split; [reflexivity|]. cbn. intuition discriminate.
Qed.
Print Assumptions C127_loop_refuted.

(* ===== C128: the register stage ===== *)

Lemma call_loc_in : forall {A} (outs : list (str * list A)) args m (x : str) y,
  (forall kk v, In (kk, v) args -> assoc kk outs <> None -> v = kk) ->
  In (x, x) args -> assoc x outs = Some y ->
  fold_left (fun m da => match assoc (fst da) outs with
                         | Some z => upd m (snd da) (Some z) | None => m end) args m x = Some y.
Proof.
  intros A outs args m x y Hk Hin Hy.
  assert (K : forall args m, (forall kk v, In (kk, v) args -> assoc kk outs <> None -> v = kk) ->
     (m x = Some y \/ In (x, x) args) ->
     fold_left (fun m da => match assoc (fst da) outs with
                         | Some z => upd m (snd da) (Some z) | None => m end) args m x = Some y).
  { clear - Hy. induction args as [|[a v] args IH]; intros m Hk H; cbn [fold_left fst snd].
    - destruct H as [H|[]]. exact H.
    - apply IH; [intros; apply Hk; [now right|assumption]|].
      destruct (assoc a outs) as [z|] eqn:Ea.
      + assert (v = a) by (apply Hk; [now left|congruence]). subst v.
        destruct (str_eqb x a) eqn:E.
        * apply str_eqb_eq in E. subst a. left. rewrite upd_same. congruence.
        * apply str_eqb_neq in E. rewrite upd_other by exact E. destruct H as [H|[H|H]]; [now left| |now right].
          injection H as H _. congruence.
      + destruct H as [H|[H|H]]; [now left| |now right]. injection H as H _. congruence. }
  apply K; auto.
Qed.
Lemma call_loc_out : forall {A} (outs : list (str * list A)) args m (x : str),
  (forall kk v, In (kk, v) args -> assoc kk outs <> None -> v = kk) ->
  assoc x outs = None ->
  fold_left (fun m da => match assoc (fst da) outs with
                         | Some z => upd m (snd da) (Some z) | None => m end) args m x = m x.
Proof.
  intros A outs args. induction args as [|[a v] args IH]; intros m x Hk H; cbn [fold_left fst snd]; [reflexivity|].
  rewrite IH; [|intros; apply Hk; [now right|assumption]|exact H].
  destruct (assoc a outs) as [z|] eqn:Ea; [|reflexivity].
  assert (v = a) by (apply Hk; [now left|congruence]). subst v. apply upd_other. congruence.
Qed.
Lemma assoc_combine : forall {B} (ks : list str) (vs : list B), NoDup ks -> length ks = length vs ->
  Forall2 (fun a v => assoc a (combine ks vs) = Some v) ks vs.
Proof.
  intros B. assert (G : forall (ks : list str) (vs : list B) pre, NoDup (map fst pre ++ ks) -> length ks = length vs ->
    Forall2 (fun a v => assoc a (pre ++ combine ks vs) = Some v) ks vs).
  { induction ks as [|a ks IH]; intros [|v vs] pre N E; try discriminate; constructor.
    - cbn [combine]. unfold assoc. assert (Na : ~ In a (map fst pre)).
      { apply NoDup_remove_2 in N. intros Hin. apply N. apply in_or_app. now left. }
      clear - Na. induction pre as [|[b u] pre IH]; cbn [app List.find fst].
      + rewrite str_eqb_refl. reflexivity.
      + cbn in Na. assert (Nb : b <> a) by tauto. rewrite (proj2 (str_eqb_neq b a) Nb). apply IH. tauto.
    - cbn [combine]. replace (pre ++ (a, v) :: combine ks vs) with ((pre ++ [(a, v)]) ++ combine ks vs) by (rewrite <- app_assoc; reflexivity).
      apply IH; [|now injection E]. rewrite map_app, <- app_assoc. exact N. }
  intros ks vs N E. apply (G ks vs [] N E).
Qed.
Lemma assoc_none : forall {B} (ks : list str) (vs : list B) (x : str), ~ In x ks -> assoc x (combine ks vs) = None.
Proof.
  intros B. induction ks as [|a ks IH]; intros [|v vs] x N; try reflexivity. unfold assoc in *. cbn [combine List.find fst].
  cbn in N. assert (Nb : a <> x) by tauto. rewrite (proj2 (str_eqb_neq a x) Nb). apply IH. tauto.
Qed.

(* What the arguments of the register call say about runtime arrays. *)
Lemma reg_args : forall h s args, suite_part_call_list h (phase_group s Reg) false true = Ok args ->
  (forall d, In d (fst (s_phase s Reg)) -> typed d) -> NoDup (map d_lname (fst (s_phase s Reg))) ->
  (forall d, In d (runtime s) -> In (d_lname d, d_lname d) args) /\
  (forall kk v, In (kk, v) args -> In kk (map d_lname (runtime s)) -> v = kk).
Proof.
  intros h s args H Ht Hn. unfold suite_part_call_list in H. cbn [p_dummies phase_group mk_part fst snd] in H.
  unfold runtime. destruct (s_phase s Reg) as [ds sch]. cbn [fst] in *.
  revert args H Ht Hn. induction ds as [|d ds IH]; intros args H Ht Hn; cbn in H.
  - injection H as <-. split; [intros d []|intros kk v []].
  - inversion Hn as [|? ? Hd Hn']; subst. cbn [List.filter].
    assert (Ht' : forall d, In d ds -> typed d) by (intros; apply Ht; now right).
    destruct (str_eqb (d_type d) (L "ccpp_constituent_properties_t")) eqn:E.
    + apply str_eqb_eq in E. destruct (Ht d (or_introl eq_refl) E) as [El Ec]. rewrite Ec, El in H. cbn [call_args] in H.
      rewrite (proj2 (str_eqb_eq (d_type d) const_prop_t) E) in H. apply bind_inv in H. destruct H as (r & Hr & H). injection H as <-.
      destruct (IH r Hr Ht' Hn') as [I1 I2]. split.
      * intros d' [<-|Hin]; [now left|right; now apply I1].
      * intros kk v [Ei|Hin] Hk; [now injection Ei as <- <-|]. destruct Hk as [Hk|Hk]; [|now apply (I2 kk v)].
        (* kk = d_lname d but kk is a keyword of a later dummy *)
        exfalso. subst kk. apply Hd. clear - Hr Hin.
        assert (K : forall l r, call_args h true l = Ok r -> forall a v, In (a, v) r -> In a (map d_lname l)).
        { induction l as [|d0 l IHl]; intros r0 H a v0 Hi; cbn [call_args] in H; [injection H as <-; destruct Hi|].
          destruct (str_eqb (d_type d0) const_prop_t).
          - apply bind_inv in H. destruct H as (r' & Hr0 & H). injection H as <-. destruct Hi as [E|Hi]; [injection E as <- <-; now left|right; now apply (IHl r' Hr0 a v0)].
          - destruct (lookup_var h (d_std d0)); [|discriminate]. apply bind_inv in H. destruct H as (r' & Hr0 & H).
            destruct (d_const d0); injection H as <-; [right; now apply (IHl r' Hr0 a v0)|].
            destruct Hi as [E|Hi]; [injection E as <- <-; now left|right; now apply (IHl r' Hr0 a v0)]. }
        assert (I := K _ _ Hr _ _ Hin). apply in_map_iff in I. destruct I as (d' & E' & Hd'). apply in_map_iff. exists d'. split; [exact E'|].
        unfold variable_list in Hd'. apply filter_In in Hd'. tauto.
    + assert (Hk : forall (kk v : str), In (kk, v) args -> exists r, call_args h true (variable_list false ds) = Ok r /\ (In (kk, v) r \/ kk = d_lname d)).
      { intros kk v Hin. destruct (if d_const d then true else if d_loop d then false else true) eqn:Ef.
        - cbn [call_args] in H. change const_prop_t with (L "ccpp_constituent_properties_t") in H. rewrite E in H.
          destruct (lookup_var h (d_std d)); [|discriminate]. apply bind_inv in H. destruct H as (r & Hr & H). exists r. split; [exact Hr|].
          destruct (d_const d); injection H as <-; [now left|]. destruct Hin as [Ei|Hin]; [injection Ei as <- <-; now right|now left].
        - exists args. split; [exact H|now left]. }
      assert (Hr : exists r, call_args h true (variable_list false ds) = Ok r /\ (forall x, In x r -> In x args)).
      { destruct (if d_const d then true else if d_loop d then false else true) eqn:Ef.
        - cbn [call_args] in H. change const_prop_t with (L "ccpp_constituent_properties_t") in H. rewrite E in H.
          destruct (lookup_var h (d_std d)); [|discriminate]. apply bind_inv in H. destruct H as (r & Hr & H). exists r. split; [exact Hr|].
          destruct (d_const d); injection H as <-; intros x Hx; [exact Hx|now right].
        - exists args. split; [exact H|auto]. }
      destruct Hr as (r & Hr & Hsub). destruct (IH r Hr Ht' Hn') as [I1 I2]. split.
      * intros d' Hin. apply Hsub. now apply I1.
      * intros kk v Hin Hk'. destruct (Hk kk v Hin) as (r' & Hr' & [Hin'|Ek]).
        -- rewrite Hr in Hr'. injection Hr' as <-. now apply (I2 kk v).
        -- exfalso. subst kk. apply Hd. apply in_map_iff in Hk'. destruct Hk' as (d' & E' & Hd'). apply filter_In in Hd'.
           apply in_map_iff. exists d'. tauto.
Qed.

Lemma reg_shape : forall h ls s b, reg_body h ls s = Ok b ->
  exists args, suite_part_call_list h (phase_group s Reg) false true = Ok args /\
    b = LCall (s_name s ++ L "_" ++ stage_name Reg) args :: LReturnIfErr :: LAlloc (dyn_array s) ls
        :: (match ls with [] => [] | _ => [LZeroCount] end) ++ packing (dyn_array s) ls.
Proof.
  intros h ls s b H. unfold reg_body in H. apply bind_inv in H. destruct H as (args & Ha & H).
  injection H as <-. exists args. split; [exact Ha|reflexivity].
Qed.

Lemma reg_exec : forall (A : Type) (w : @callee A) k h ss lines sn pn s e n m,
  stage_lines h ss Reg = Ok lines -> chosen_suite ss sn s ->
  exists args b,
    suite_part_call_list h (phase_group s Reg) false true = Ok args /\
    b = LCall (s_name s ++ L "_" ++ stage_name Reg) args :: LReturnIfErr
        :: LAlloc (dyn_array s) (map d_lname (List.concat (map runtime ss)))
        :: (match map d_lname (List.concat (map runtime ss)) with [] => [] | _ => [LZeroCount] end)
        ++ packing (dyn_array s) (map d_lname (List.concat (map runtime ss))) /\
    NoDup (map d_lname (List.concat (map runtime ss))) /\
    exec w k (args2 sn pn) [] (start e n m) lines = steps w k (cleared (start e n m)) b.
Proof.
  intros A w k h ss lines sn pn s e n m H Hs.
  destruct (stage_body _ _ _ _ _ _ H Hs) as (locals & b & Hl & Hb).
  destruct (locals_spec h ss locals Hl) as [El Nd]. rewrite El in Hb. 
  destruct (reg_shape _ _ _ _ Hb) as (args & Ha & Eb). exists args, b. split; [exact Ha|]. split; [exact Eb|]. split; [exact Nd|].
  apply (stage_hit w k (args2 sn pn) h ss Reg lines s sn (start e n m) _ b locals H Hl); auto; try discriminate.
  - now rewrite El.
  - intros f q Ho Htk Hc He. apply plain_body; auto. apply (reg_plain h _ s b Hb).
Qed.

Lemma F2_impl_in : forall {T U} (P Q : T -> U -> Prop) l l', (forall x y, In x l -> P x y -> Q x y) ->
  Forall2 P l l' -> Forall2 Q l l'.
Proof.
  intros T U P Q l l' H F. induction F as [|x y l l' Hxy F IH]; constructor.
  - apply H; [now left|exact Hxy].
  - apply IH. intros; apply H; [now right|assumption].
Qed.

(* The local arrays after the register phase of the suite returned. *)
Lemma loc_own : forall (A : Type) h s args (arrays : list (list A)),
  suite_part_call_list h (phase_group s Reg) false true = Ok args ->
  (forall d, In d (fst (s_phase s Reg)) -> typed d) -> NoDup (map d_lname (fst (s_phase s Reg))) ->
  NoDup (map d_lname (runtime s)) -> length arrays = length (runtime s) ->
  let loc := fold_left (fun m da => match assoc (fst da) (combine (map d_lname (runtime s)) arrays) with
                         | Some z => upd m (snd da) (Some z) | None => m end) args (fun _ => None) in
  Forall2 (fun v l => loc v = Some l) (map d_lname (runtime s)) arrays /\
  (forall v, ~ In v (map d_lname (runtime s)) -> loc v = None).
Proof.
  intros A h s args arrays Ha Ht Hn Nd Hlen loc. destruct (reg_args h s args Ha Ht Hn) as [A1 A2].
  assert (K : forall kk v, In (kk, v) args -> assoc kk (combine (map d_lname (runtime s)) arrays) <> None -> v = kk).
  { intros kk v' Hin' Hk. apply A2; [exact Hin'|]. destruct (in_dec (list_eq_dec ascii_dec) kk (map d_lname (runtime s))) as [I|I]; [exact I|].
    exfalso. apply Hk. now apply assoc_none. }
  split.
  - assert (F0 := assoc_combine (map d_lname (runtime s)) arrays Nd ltac:(now rewrite map_length)).
    revert F0. apply F2_impl_in. intros v l Hv Ev. unfold loc. apply call_loc_in; [exact K| |exact Ev].
    apply in_map_iff in Hv. destruct Hv as (d & <- & Hd). now apply A1.
  - intros v Hv. unfold loc. rewrite call_loc_out; [reflexivity|exact K|now apply assoc_none].
Qed.

(* When no other suite of the host has runtime constituents, registering a suite calls
   its register phase once and leaves the concatenation of its arrays, in the order of
   its arguments, in the array of the suite and nothing else. *)
Theorem C128_register : forall (A : Type) (w : @callee A) k h ss lines sn pn s e n m arrays,
  stage_lines h ss Reg = Ok lines -> chosen_suite ss sn s ->
  (forall d, In d (fst (s_phase s Reg)) -> typed d) -> NoDup (map d_lname (fst (s_phase s Reg))) ->
  List.concat (map runtime ss) = runtime s ->
  w (s_name s ++ L "_register") = (0%Z, combine (map d_lname (runtime s)) arrays) ->
  length arrays = length (runtime s) ->
  m (s_name s ++ L "_dynamic_constituents") = None ->
  exists st args,
    exec w k (args2 sn pn) [] (start e n m) lines = Some st /\ st_err st = 0%Z /\
    st_calls st = [(s_name s ++ L "_register", args)] /\
    st_mod st (s_name s ++ L "_dynamic_constituents") = Some (map Some (List.concat arrays)) /\
    (forall a, a <> s_name s ++ L "_dynamic_constituents" -> st_mod st a = m a).
Proof.
  intros A w k h ss lines sn pn s e n m arrays H Hs Ht Hn Hone Hw Hlen Hm.
  destruct (reg_exec A w k h ss lines sn pn s e n m H Hs) as (args & b & Ha & Eb & Nd & E).
  rewrite Hone in Eb, Nd. rewrite E, Eb. clear E Eb.
  destruct (loc_own A h s args arrays Ha Ht Hn Nd Hlen) as [F _].
  change (s_name s ++ L "_" ++ stage_name Reg) with (s_name s ++ L "_register").
  set (loc := fold_left _ args _) in F.
  set (st1 := mkSt 0%Z [(s_name s ++ L "_register", args)] false loc m n None : @state A).
  assert (E1 : forall q, steps w k (cleared (start e n m)) (LCall (s_name s ++ L "_register") args :: LReturnIfErr :: q) = steps w k st1 q).
  { intros q. cbn [steps cleared set_err start st_ret exec1]. unfold do_call. rewrite Hw. reflexivity. }
  rewrite E1. cbn [steps]. cbn [st_ret st1 exec1 st_mod st_loc]. unfold dyn_array. rewrite Hm, (total_spec _ _ _ F).
  cbn [st_err st_calls st_ret st_loc st_mod st_cnt st_out].
  assert (P : forall st2, st_ret st2 = false -> st_loc st2 = loc -> st_cnt st2 = 0 -> st_err st2 = 0%Z ->
     st_calls st2 = [(s_name s ++ L "_register", args)] ->
     st_mod st2 = upd m (s_name s ++ L "_dynamic_constituents") (Some (List.repeat None (length (List.concat arrays)))) ->
     exists st args0,
    steps w k st2 (packing (s_name s ++ L "_dynamic_constituents") (map d_lname (runtime s))) = Some st /\ st_err st = 0%Z /\
    st_calls st = [(s_name s ++ L "_register", args0)] /\
    st_mod st (s_name s ++ L "_dynamic_constituents") = Some (map Some (List.concat arrays)) /\
    (forall a, a <> s_name s ++ L "_dynamic_constituents" -> st_mod st a = m a)).
  { intros st2 R2 L2 C2 Er2 Ca2 M2.
    destruct (steps_pack w k (s_name s ++ L "_dynamic_constituents") (map d_lname (runtime s)) arrays st2 [] _ Nd R2
                ltac:(now rewrite L2) C2 eq_refl) as (st & Hst & H1 & H2 & H3 & H4 & H5 & H6).
    - rewrite M2, upd_same. reflexivity.
    - exists st, args. split; [exact Hst|]. split; [congruence|]. split; [congruence|]. split; [exact H5|].
      intros a Hna. rewrite H6 by exact Hna. rewrite M2. now apply upd_other. }
  destruct (map d_lname (runtime s)) as [|v vs] eqn:Ev.
  - cbn [app]. inversion F. subst arrays. cbn. do 2 eexists. split; [reflexivity|]. split; [reflexivity|]. split; [reflexivity|].
    cbn. split; [rewrite upd_same; reflexivity|]. intros a Hna. now apply upd_other.
  - cbn [app]. cbn [steps st_ret exec1]. apply P; reflexivity.
Qed.
Print Assumptions C128_register.
Definition x_reg : @callee nat := fun n => if str_eqb n (L "cam7_register") then (0%Z, [(L "tracers_l", [7; 8; 9])]) else (0%Z, []).
Example C128_register_nonvacuous :
  let s := x_suite (L "cam7") [x_dyn (L "tracers")] [L "physics_before"; L "physics_after"] in
  stage_lines x_host x_ss Reg = Ok (x_lines Reg) /\ chosen_suite x_ss (L "cam7") s /\
  (forall d, In d (fst (s_phase s Reg)) -> typed d) /\ NoDup (map d_lname (fst (s_phase s Reg))) /\
  List.concat (map runtime x_ss) = runtime s /\
  x_reg (s_name s ++ L "_register") = (0%Z, combine (map d_lname (runtime s)) [[7; 8; 9]]) /\
  option_map (fun st => st_mod st (L "cam7_dynamic_constituents"))
    (exec x_reg 8 (args2 (L "cam7") []) [] (start 0 0 (fun _ => None)) (x_lines Reg)) = Some (Some [Some 7; Some 8; Some 9]).
Proof.
  cbn zeta. split; [vm_compute; reflexivity|]. split.
  { eexists [], _. split; [reflexivity|]. split; [apply same_refl|intros y []]. }
  split; [intros d [<-|[<-|[]]]; intros Hd; [discriminate|split; reflexivity]|].
  split; [repeat constructor; cbn; intuition discriminate|].
  split; [reflexivity|]. split; [reflexivity|]. vm_compute. reflexivity.
Qed.

(* If the register phase fails, the error is returned and no module array changes. *)
Theorem C128_error : forall (A : Type) (w : @callee A) k h ss lines sn pn s e n m ec,
  stage_lines h ss Reg = Ok lines -> chosen_suite ss sn s ->
  fst (w (s_name s ++ L "_register")) = ec -> ec <> 0%Z ->
  exists st args,
    exec w k (args2 sn pn) [] (start e n m) lines = Some st /\ st_err st = ec /\
    st_calls st = [(s_name s ++ L "_register", args)] /\ st_mod st = m.
Proof.
  intros A w k h ss lines sn pn s e n m ec H Hs Hw Hne.
  destruct (reg_exec A w k h ss lines sn pn s e n m H Hs) as (args & b & Ha & Eb & Nd & E).
  rewrite E, Eb. change (s_name s ++ L "_" ++ stage_name Reg) with (s_name s ++ L "_register").
  cbn [steps cleared set_err start st_ret exec1]. unfold do_call. destruct (w (s_name s ++ L "_register")) as [e0 outs].
  cbn [fst] in Hw. subst e0. cbn [st_ret exec1 st_err st_calls st_loc st_mod st_cnt st_out].
  rewrite (proj2 (Z.eqb_neq ec 0) Hne). cbn [negb st_ret]. do 2 eexists. split; [reflexivity|]. repeat split; reflexivity.
Qed.
Print Assumptions C128_error.
Example C128_error_nonvacuous :
  option_map (fun st => (st_err st, st_mod st (L "cam7_dynamic_constituents")))
    (exec (fun _ => (5%Z, [])) 8 (args2 (L "cam7") []) [] (start 0 0 (fun _ => @None (list (option nat)))) (x_lines Reg)) = Some (5%Z, None).
Proof. vm_compute. reflexivity. Qed.

(* Finding: as soon as another suite of the host has a runtime constituent array, the
   registration of a suite asks for the size of an array that was never allocated. *)
Theorem C128_other_suite_refuted : forall (A : Type) (w : @callee A) k h ss lines sn pn s s2 e n m arrays,
  stage_lines h ss Reg = Ok lines -> chosen_suite ss sn s ->
  (forall d, In d (fst (s_phase s Reg)) -> typed d) -> NoDup (map d_lname (fst (s_phase s Reg))) ->
  In s2 ss -> s2 <> s -> runtime s2 <> [] ->
  w (s_name s ++ L "_register") = (0%Z, combine (map d_lname (runtime s)) arrays) ->
  length arrays = length (runtime s) ->
  exec w k (args2 sn pn) [] (start e n m) lines = None.
Proof.
  intros A w k h ss lines sn pn s s2 e n m arrays H Hs Ht Hn H2 Hne Hrt Hw Hlen.
  destruct (reg_exec A w k h ss lines sn pn s e n m H Hs) as (args & b & Ha & Eb & Nd & E).
  assert (Hss : In s ss) by (destruct Hs as (bf & af & -> & _ & _); apply in_or_app; right; now left).
  assert (Split : exists l1 l2, ss = l1 ++ s :: l2 /\ In s2 (l1 ++ l2)).
  { apply in_split in Hss. destruct Hss as (l1 & l2 & ->). exists l1, l2. split; [reflexivity|].
    apply in_app_or in H2. apply in_or_app. destruct H2 as [H2|[H2|H2]]; [now left|congruence|now right]. }
  destruct Split as (l1 & l2 & Ess & Hin2).
  rewrite Ess, map_app in Nd. cbn [map] in Nd. rewrite concat_app in Nd. cbn [List.concat] in Nd. rewrite !map_app in Nd.
  assert (Nown : NoDup (map d_lname (runtime s))).
  { clear - Nd. induction (map d_lname (List.concat (map runtime l1))) as [|x l IH]; cbn in Nd.
    - induction (map d_lname (runtime s)) as [|y r IHr]; [constructor|]. cbn in Nd. inversion Nd as [|? ? Hy Nd']; subst.
      constructor; [|now apply IHr]. intros Hi. apply Hy. apply in_or_app. now left.
    - inversion Nd; subst. now apply IH. }
  destruct (runtime s2) as [|d rest] eqn:Er; [contradiction|].
  assert (Hd2 : In (d_lname d) (map d_lname (List.concat (map runtime (l1 ++ l2))))).
  { apply in_map. apply in_concat. exists (runtime s2). split; [now apply in_map|]. rewrite Er. now left. }
  assert (Hout : ~ In (d_lname d) (map d_lname (runtime s))).
  { intros Hi. rewrite map_app, concat_app, map_app in Hd2.
    assert (Nd2 : NoDup (map d_lname (runtime s) ++ (map d_lname (List.concat (map runtime l1)) ++ map d_lname (List.concat (map runtime l2))))).
    { apply (Permutation_NoDup (l := map d_lname (List.concat (map runtime l1)) ++ map d_lname (runtime s) ++ map d_lname (List.concat (map runtime l2)))); [|exact Nd].
      apply Permutation_app_swap_app. }
    revert Nd2 Hd2. generalize (map d_lname (List.concat (map runtime l1)) ++ map d_lname (List.concat (map runtime l2))). intros r Nd2 Hd2.
    clear - Nd2 Hd2 Hi. induction (map d_lname (runtime s)) as [|y l IH]; [destruct Hi|]. cbn in Nd2. inversion Nd2 as [|? ? Hy Nd']; subst.
    destruct Hi as [Ei|Hi]; [apply Hy; apply in_or_app; right; now rewrite Ei|now apply IH]. }
  destruct (loc_own A h s args arrays Ha Ht Hn Nown Hlen) as [_ F].
  rewrite E, Eb. change (s_name s ++ L "_" ++ stage_name Reg) with (s_name s ++ L "_register").
  cbn [steps cleared set_err start st_ret exec1]. unfold do_call. rewrite Hw.
  cbn [st_ret exec1 st_err st_calls st_loc st_mod st_cnt st_out Z.eqb negb].
  rewrite (total_none _ _ (d_lname d)).
  - destruct (st_mod (cleared (start e n m)) (dyn_array s)); reflexivity.
  - apply in_map. apply in_concat. exists (runtime s2). split; [apply in_map; rewrite Ess|rewrite Er; now left].
    apply in_app_or in Hin2. apply in_or_app. destruct Hin2 as [Hi|Hi]; [now left|right; now right].
  - apply F. exact Hout.
Qed.
Print Assumptions C128_other_suite_refuted.
Example C128_other_suite_nonvacuous :
  let s := x_suite (L "a") [x_dyn (L "d1")] [L "g"] in
  let ss := [s; x_suite (L "b") [x_dyn (L "d2")] [L "g"]] in
  (exists lines, stage_lines x_host ss Reg = Ok lines) /\ chosen_suite ss (L "a") s /\
  exec (fun _ => (0%Z, [(L "d1_l", [1])])) 8 (args2 (L "a") []) [] (start 0 0 (fun _ => None)) (ok_or [] (stage_lines x_host ss Reg)) = None.
Proof.
  cbn zeta. split; [eexists; vm_compute; reflexivity|]. split; [|vm_compute; reflexivity].
  eexists [], _. split; [reflexivity|]. split; [apply same_refl|intros y []].
Qed.

(* Finding: registering a suite a second time without the cleanup in between allocates
   an allocated array. *)
Theorem C128_twice_refuted : forall (A : Type) (w : @callee A) k h ss lines sn pn s e n m a,
  stage_lines h ss Reg = Ok lines -> chosen_suite ss sn s ->
  fst (w (s_name s ++ L "_register")) = 0%Z ->
  m (s_name s ++ L "_dynamic_constituents") = Some a ->
  exec w k (args2 sn pn) [] (start e n m) lines = None.
Proof.
  intros A w k h ss lines sn pn s e n m a H Hs Hw Hm.
  destruct (reg_exec A w k h ss lines sn pn s e n m H Hs) as (args & b & Ha & Eb & Nd & E).
  rewrite E, Eb. change (s_name s ++ L "_" ++ stage_name Reg) with (s_name s ++ L "_register").
  cbn [steps cleared set_err start st_ret exec1]. unfold do_call. destruct (w (s_name s ++ L "_register")) as [e0 outs].
  cbn [fst] in Hw. subst e0. cbn [st_ret exec1 st_err st_calls st_loc st_mod st_cnt st_out Z.eqb negb].
  unfold dyn_array, cleared, set_err, start. cbn [st_mod st_ret]. rewrite Hm. reflexivity.
Qed.
Print Assumptions C128_twice_refuted.

Example C128_twice_nonvacuous :
  exec x_reg 8 (args2 (L "cam7") []) [] (start 0 0 (fun a => if str_eqb a (L "cam7_dynamic_constituents") then Some [Some 7] else None)) (x_lines Reg) = None.
Proof. vm_compute. reflexivity. Qed.

(* ===== C129: inspection ===== *)

Lemma fit_fits : forall k x, fits k x (fit k x).
Proof.
  intros k x. unfold fits, fit. split.
  - rewrite firstn_length, app_length, repeat_length. lia.
  - destruct (Nat.le_gt_cases k (length x)) as [H|H].
    + left. rewrite firstn_app. replace (k - length x) with 0 by lia. cbn [firstn]. rewrite app_nil_r. exists (skipn k x). symmetry. apply firstn_skipn.
    + right. rewrite firstn_app, firstn_all2 by lia. exists (Nat.min (k - length x) k). f_equal.
      clear. generalize (k - length x). revert k. intros k j. revert k. induction j as [|j IH]; intros [|k]; try reflexivity. cbn. f_equal. apply IH.
Qed.
Lemma fits_same : forall k x y, fits k x y -> length x <= k -> same y x.
Proof.
  intros k x y [H1 [(z & H2)|(n & H2)]] Hl.
  - assert (z = []). { destruct z; [reflexivity|]. subst x. rewrite app_length in Hl. cbn in Hl. lia. }
    subst z x. rewrite app_nil_r. apply same_refl.
  - exists x, n, 0. split; [exact H2|]. cbn. now rewrite app_nil_r.
Qed.

Section Inspect.
Context {A : Type}.
Variable w : @callee A.
Variable k : nat.

Lemma set_loop : forall l (s : @state A) done,
  st_ret s = false -> st_out s = Some (done ++ List.repeat None (length l)) ->
  exists s', steps w k s (set_from (S (length done)) l) = Some s' /\
    st_err s' = st_err s /\ st_calls s' = st_calls s /\ st_ret s' = false /\ st_mod s' = st_mod s /\
    st_out s' = Some (done ++ map (fun x => Some (fit k x)) l).
Proof.
  induction l as [|x l IH]; intros s done Hr Ho.
  - exists s. repeat split; auto.
  - cbn [set_from steps]. rewrite Hr. cbn [exec1]. rewrite Ho. cbn [length List.repeat].
    assert (E : forall B (a b : list B) x y, set_nth (length a) y (a ++ x :: b) = Some (a ++ y :: b)).
    { intros B a b x0 y. unfold set_nth. rewrite app_length. cbn [length].
      replace (length a <? length a + S (length b)) with true by (symmetry; apply Nat.ltb_lt; lia).
      f_equal. rewrite firstn_app, firstn_all, Nat.sub_diag. cbn [firstn]. rewrite app_nil_r. f_equal. f_equal.
      rewrite skipn_app. rewrite skipn_all2 by lia. replace (S (length a) - length a) with 1 by lia. reflexivity. }
    rewrite E.
    destruct (IH (mkSt (st_err s) (st_calls s) (st_ret s) (st_loc s) (st_mod s) (st_cnt s) (Some (done ++ Some (fit k x) :: List.repeat None (length l))))
                 (done ++ [Some (fit k x)])) as (s' & H1 & H2 & H3 & H4 & H5 & H6); [exact Hr|cbn; now rewrite <- app_assoc|].
    rewrite app_length in H1. cbn [length] in H1. replace (S (length done + 1)) with (S (S (length done))) in H1 by lia.
    exists s'. split; [exact H1|]. split; [exact H2|]. split; [exact H3|]. split; [exact H4|]. split; [exact H5|].
    rewrite H6, <- app_assoc. reflexivity.
Qed.
Lemma filled_map : forall l, filled k l (map (fun x => Some (fit k x)) l).
Proof. induction l; constructor; [|assumption]. eexists. split; [reflexivity|apply fit_fits]. Qed.

Lemma set_plain : forall l i, forallb plain (set_from i l) = true.
Proof. induction l as [|x l IH]; intros i; [reflexivity|]. cbn. apply IH. Qed.

Lemma inspect_hit : forall (f : suite -> list str) ss lines sn pn s,
  (r <- suite_chain (fun s => Ok (var_set_loop (f s))) false ss ;; Ok (LClear :: r ++ [LElse; LErr; LEndIf])) = Ok lines ->
  chosen_suite ss sn s ->
  exists st, exec w k (args2 sn pn) [] (start 0 0 (fun _ => None)) lines = Some st /\
    st_err st = 0%Z /\ st_out st = Some (map (fun x => Some (fit k x)) (sorted (f s))).
Proof.
  intros f ss lines sn pn s H (bf & af & -> & Hs & Hn). apply bind_inv in H. destruct H as (r & H & E). injection E as <-.
  apply suite_chain_shape in H. destruct H as (bs & F & ->).
  assert (Sk : Forall (fun nb => skips w k (args2 sn pn) (snd nb)) bs).
  { clear - F. induction F as [|x nb l l' (E & Hb) F IH]; constructor; [|exact IH]. injection Hb as Hb. rewrite <- Hb.
    apply skips_plain. cbn. apply set_plain. }
  destruct (F2_split _ _ _ _ _ F) as (b1 & [nm b] & b2 & -> & F1 & (En & Eb) & F2). cbn [fst snd] in En, Eb. subst nm. injection Eb as Eb.
  destruct (set_loop (sorted (f s)) (mkSt 0%Z [] false (fun _ => None) (fun _ => None) 0 (Some (List.repeat None (length (f s))))) [] eq_refl)
    as (st & H1 & H2 & H3 & H4 & H5 & H6); [cbn; now rewrite sorted_length|].
  exists st. split; [|split; [exact H2|exact H6]].
  rewrite exec_plain by reflexivity. cbn [live start st_ret negb andb exec1].
  change (chain SuiteName false (b1 ++ (s_name s, b) :: b2) ++ [LElse; LErr; LEndIf])
    with (closed SuiteName false (b1 ++ (s_name s, b) :: b2)).
  rewrite <- (app_nil_r (closed _ _ _)).
  rewrite (closed_hit w k (args2 sn pn) SuiteName b1 (s_name s) b b2 [] _ (Some st) []); [reflexivity|exact Sk|reflexivity| |exact Hs|].
  - intros n' b' Hin Sm. destruct (F2_in_r _ _ _ _ F1 Hin) as (s0 & Hs0 & En & _). cbn in En. subst n'. now apply (Hn s0 Hs0).
  - intros fr q Ho Ht Hc He. exists fr. repeat split; try assumption. rewrite <- Eb. unfold var_set_loop. rewrite exec_steps; [|cbn; apply set_plain|exact Hc|reflexivity].
    cbn [steps st_ret exec1 st_out start st_err st_calls st_loc st_mod st_cnt]. cbn [length app] in H1. rewrite H1. reflexivity.
Qed.

Lemma inspect_miss : forall (f : suite -> list str) ss lines sn pn,
  (r <- suite_chain (fun s => Ok (var_set_loop (f s))) false ss ;; Ok (LClear :: r ++ [LElse; LErr; LEndIf])) = Ok lines ->
  ss <> [] -> (forall s, In s ss -> ~ same sn (s_name s)) ->
  exists st, exec w k (args2 sn pn) [] (start 0 0 (fun _ => None)) lines = Some st /\
    st_err st = 1%Z /\ st_out st = None.
Proof.
  intros f ss lines sn pn H Hss Hn. apply bind_inv in H. destruct H as (r & H & E). injection E as <-.
  apply suite_chain_shape in H. destruct H as (bs & F & ->).
  assert (Sk : Forall (fun nb => skips w k (args2 sn pn) (snd nb)) bs).
  { clear - F. induction F as [|x nb l l' (E & Hb) F IH]; constructor; [|exact IH]. injection Hb as Hb. rewrite <- Hb.
    apply skips_plain. cbn. apply set_plain. }
  rewrite exec_plain by reflexivity. cbn [live start st_ret negb andb exec1].
  change (chain SuiteName false bs ++ [LElse; LErr; LEndIf]) with (closed SuiteName false bs).
  rewrite <- (app_nil_r (closed _ _ _)). rewrite closed_none; [| |exact Sk|reflexivity|].
  - eexists. split; [reflexivity|]. split; reflexivity.
  - intros E. subst bs. inversion F. subst ss. contradiction.
  - intros n b Hin. destruct (F2_in_r _ _ _ _ F Hin) as (s0 & Hs0 & En & _). cbn in En. subst n. now apply Hn.
Qed.
End Inspect.

Lemma part_names_list : forall s, part_list s = part_names s.
Proof.
  intros s. rewrite part_list_own. unfold own, part_names. induction (s_groups s) as [|g l IH]; [reflexivity|].
  cbn [map List.filter]. unfold mem. destruct (existsb (str_eqb (fst g)) phase_names); cbn [negb map]; [exact IH|]. now f_equal.
Qed.

(* ccpp_physics_suite_list: the suites in order. *)
Theorem C129_suites : forall (A : Type) (w : @callee A) k val ss,
  exists st out, exec w k val [] (start 0 0 (fun _ => None)) (suite_list_lines ss) = Some st /\
    st_out st = Some out /\ filled k (map s_name ss) out.
Proof.
  intros A w k val ss. unfold suite_list_lines.
  destruct (set_loop w k (map s_name ss) (mkSt 0%Z [] false (fun _ => None) (fun _ => None) 0 (Some (List.repeat None (length ss)))) [] eq_refl)
    as (st & H1 & H2 & H3 & H4 & H5 & H6); [cbn; now rewrite map_length|].
  exists st. eexists. split; [|split; [exact H6|apply filled_map]].
  rewrite <- (app_nil_r (_ :: _)). rewrite exec_steps; [|cbn; apply set_plain|reflexivity|reflexivity].
  cbn [steps st_ret exec1 st_out start st_err st_calls st_loc st_mod st_cnt]. cbn [length app] in H1. rewrite H1. reflexivity.
Qed.
Print Assumptions C129_suites.
Example C129_suites_nonvacuous :
  option_map st_out (exec quiet 6 (fun _ => []) [] (start 0 0 (fun _ => None)) (suite_list_lines x_ss))
  = Some (Some [Some (L "cam7  "); Some (L "kessle")]).
Proof. vm_compute. reflexivity. Qed.

(* ccpp_physics_suite_part_list: the parts of the suite, each once per group, sorted,
   every element assigned. *)
Theorem C129_parts : forall (A : Type) (w : @callee A) k ss lines sn pn s,
  part_list_lines ss = Ok lines -> chosen_suite ss sn s ->
  exists st out l, exec w k (args2 sn pn) [] (start 0 0 (fun _ => None)) lines = Some st /\
    st_err st = 0%Z /\ st_out st = Some out /\
    Permutation l (part_names s) /\ in_order l /\ filled k l out.
Proof.
  intros A w k ss lines sn pn s H Hs. destruct (inspect_hit w k part_list ss lines sn pn s H Hs) as (st & H1 & H2 & H3).
  exists st. eexists. exists (sorted (part_list s)). split; [exact H1|]. split; [exact H2|]. split; [exact H3|].
  split; [rewrite <- part_names_list; apply sorted_perm|]. split; [apply in_order_sorted|apply filled_map].
Qed.
Print Assumptions C129_parts.
Example C129_parts_nonvacuous :
  option_map st_out (exec quiet 16 (args2 (L "cam7") []) [] (start 0 0 (fun _ => None)) (ok_or [] (part_list_lines x_ss)))
  = Some (Some [Some (L "physics_after   "); Some (L "physics_before  ")]).
Proof. vm_compute. reflexivity. Qed.

(* ccpp_physics_suite_schemes: the schemes of all phases and groups, each once, sorted. *)
Theorem C129_schemes : forall (A : Type) (w : @callee A) k ss lines sn pn s,
  scheme_list_lines ss = Ok lines -> chosen_suite ss sn s ->
  exists st out l, exec w k (args2 sn pn) [] (start 0 0 (fun _ => None)) lines = Some st /\
    st_err st = 0%Z /\ st_out st = Some out /\
    NoDup l /\ in_order l /\ filled k l out /\
    forall x, In x l <->
      (exists t, t <> Run /\ In x (snd (s_phase s t))) \/ (exists g, In g (s_groups s) /\ In x (snd (snd g))).
Proof.
  intros A w k ss lines sn pn s H Hs. destruct (inspect_hit w k scheme_set ss lines sn pn s H Hs) as (st & H1 & H2 & H3).
  exists st. eexists. exists (sorted (scheme_set s)). split; [exact H1|]. split; [exact H2|]. split; [exact H3|].
  assert (U : forall l acc, (NoDup acc -> NoDup (fold_left (fun acc p => s_union acc (p_schemes p)) l acc)) /\
              forall x, In x (fold_left (fun acc p => s_union acc (p_schemes p)) l acc) <-> In x acc \/ exists p, In p l /\ In x (p_schemes p)).
  { induction l as [|p l IH]; intros acc; cbn [fold_left].
    - split; [auto|]. intros x. split; [auto|]. intros [Hx|(p & [] & _)]. exact Hx.
    - destruct (IH (s_union acc (p_schemes p))) as [N I]. split.
      + intros Na. apply N. now apply nd_union.
      + intros x. rewrite I, in_s_union. split.
        * intros [[Hx|Hx]|(p' & Hp & Hx)]; [now left|right; exists p; split; [now left|exact Hx]|right; exists p'; split; [now right|exact Hx]].
        * intros [Hx|(p' & [<-|Hp] & Hx)]; [left; now left|left; now right|right; exists p'; split; assumption]. }
  destruct (U (groups s) []) as [N I]. split; [apply nd_sorted; apply N; constructor|].
  split; [apply in_order_sorted|]. split; [apply filled_map|].
  intros x. rewrite in_sorted. unfold scheme_set. rewrite I. split.
  - intros [[]|(p & Hp & Hx)]. unfold groups in Hp. apply in_app_or in Hp. destruct Hp as [Hp|Hp].
    + left. destruct Hp as [<-|[<-|[<-|[]]]]; [exists Reg|exists Ini|exists TIni]; (split; [discriminate|exact Hx]).
    + apply in_app_or in Hp. destruct Hp as [Hp|Hp].
      * right. apply in_map_iff in Hp. destruct Hp as (g & <- & Hg). exists g. split; [exact Hg|exact Hx].
      * left. destruct Hp as [<-|[<-|[]]]; [exists TFin|exists Fin]; (split; [discriminate|exact Hx]).
  - intros [(t & Ht & Hx)|(g & Hg & Hx)]; right.
    + exists (phase_group s t). split; [|exact Hx]. unfold groups. destruct t; try contradiction;
        try (apply in_or_app; left; cbn; tauto); apply in_or_app; right; apply in_or_app; right; cbn; tauto.
    + exists (mk_part s g). split; [|exact Hx]. unfold groups. apply in_or_app. right. apply in_or_app. left. now apply in_map.
Qed.
Print Assumptions C129_schemes.
Example C129_schemes_nonvacuous :
  option_map st_out (exec quiet 12 (args2 (L "kessler") []) [] (start 0 0 (fun _ => None)) (ok_or [] (scheme_list_lines x_ss)))
  = Some (Some [Some (L "micro_scheme"); Some (L "rad         "); Some (L "setup       ")]).
Proof. vm_compute. reflexivity. Qed.

(* An unknown suite: error flag, and the list stays unallocated. *)
Theorem C129_unknown : forall (A : Type) (w : @callee A) k ss lines sn pn,
  (part_list_lines ss = Ok lines \/ scheme_list_lines ss = Ok lines) ->
  ss <> [] -> (forall s, In s ss -> ~ same sn (s_name s)) ->
  exists st, exec w k (args2 sn pn) [] (start 0 0 (fun _ => None)) lines = Some st /\
    st_err st = 1%Z /\ st_out st = None.
Proof.
  intros A w k ss lines sn pn [H|H] Hss Hn; eapply inspect_miss; eauto.
Qed.
Print Assumptions C129_unknown.
Example C129_unknown_nonvacuous :
  option_map (fun st => (st_err st, st_out st)) (exec quiet 12 (args2 (L "kess") []) [] (start 0 0 (fun _ => None)) (ok_or [] (scheme_list_lines x_ss)))
  = Some (1%Z, None).
Proof. vm_compute. reflexivity. Qed.

(* Inspection and dispatch agree: when the caller's strings are long enough, running a listed part calls the group of that name, and
   only listed parts are called. *)
Theorem C129_round_trip : forall (A : Type) (w : @callee A) k h ss plines rlines sn s out ist,
  part_list_lines ss = Ok plines -> stage_lines h ss Run = Ok rlines ->
  (forall s, In s ss -> has_part s) -> chosen_suite ss sn s ->
  (forall g, In g (s_groups s) -> length (fst g) <= k) ->
  exec w k (args2 sn []) [] (start 0 0 (fun _ => None)) plines = Some ist -> st_out ist = Some out ->
  (forall y, In (Some y) out -> exists g, In g (s_groups s) /\ same y (fst g) /\
     exists st args, exec w k (args2 sn y) [] (start 0 0 (fun _ => None)) rlines = Some st /\
       st_calls st = [(s_name s ++ L "_" ++ fst g, args)]) /\
  (forall pn st, exec w k (args2 sn pn) [] (start 0 0 (fun _ => None)) rlines = Some st ->
     st_calls st <> [] -> exists y, In (Some y) out /\ same pn y).
Proof.
  intros A w k h ss plines rlines sn s out ist Hp Hr Hpart Hs Hk Hi Ho.
  destruct (inspect_hit w k part_list ss plines sn [] s Hp Hs) as (st & H1 & H2 & H3).
  rewrite H1 in Hi. injection Hi as <-. rewrite H3 in Ho. injection Ho as <-. split.
  - intros y Hy. apply in_map_iff in Hy. destruct Hy as (x & E & Hx). injection E as <-.
    apply (proj1 (in_sorted _ _)) in Hx. rewrite part_list_own in Hx. apply in_map_iff in Hx. destruct Hx as (g & <- & Hg).
    apply in_own in Hg. destruct Hg as [Hg Hn].
    assert (Sm : same (fit k (fst g)) (fst g)) by (apply (fits_same k); [apply fit_fits|now apply Hk]).
    destruct (group_choice s (fit k (fst g))) as [(g' & Hg')|Hno]; [|exfalso; now apply (Hno g Hg Hn)].
    assert (Hg2 := Hg'). destruct Hg' as (b1 & a1 & Eg & (Hn' & Sm') & _).
    assert (In' : In g' (s_groups s)) by (rewrite Eg; apply in_or_app; right; now left).
    exists g'. split; [exact In'|]. split; [exact Sm'|].
    destruct (C126_run A w k h ss rlines sn (fit k (fst g)) s g' 0 0 (fun _ => None) Hr Hpart Hs Hg2) as (st' & args & E1 & E2 & _).
    exists st', args. split; assumption.
  - intros pn st' Hx Hc. destruct (group_choice s pn) as [(g & Hg)|Hno].
    + destruct Hg as (b1 & a1 & Eg & (Hn & Sm) & _). exists (fit k (fst g)).
      assert (Hin : In g (s_groups s)) by (rewrite Eg; apply in_or_app; right; now left). split.
      * apply in_map_iff. exists (fst g). split; [reflexivity|]. apply in_sorted. rewrite part_list_own. apply in_map. apply in_own. now split.
      * assert (Sm2 : same (fit k (fst g)) (fst g)) by (apply (fits_same k); [apply fit_fits|now apply Hk]).
        apply blank_eq_spec in Sm. apply blank_eq_spec in Sm2. apply blank_eq_spec. unfold blank_eq in *.
        apply str_eqb_eq in Sm. apply str_eqb_eq in Sm2. apply str_eqb_eq. congruence.
    + destruct (C126_unknown_part A w k h ss rlines sn pn s 0 0 (fun _ => None) Hr Hpart Hs Hno) as (st2 & E & E2 & _).
      rewrite E in Hx. injection Hx as <-. contradiction.
Qed.
Print Assumptions C129_round_trip.
Example C129_round_trip_nonvacuous :
  exists y, option_map (fun st => match st_out st with Some (Some y :: _) => y | _ => [] end)
              (exec quiet 16 (args2 (L "cam7") []) [] (start 0 0 (fun _ => None)) (ok_or [] (part_list_lines x_ss))) = Some y /\
  option_map (fun st => map fst (st_calls st)) (exec quiet 16 (args2 (L "cam7") y) [] (start 0 0 (fun _ => None)) (x_lines Run))
  = Some [L "cam7_physics_after"].
Proof. eexists. split; vm_compute; reflexivity. Qed.

(* Finding: when the elements of the caller's list are shorter than a part name the
   name is cut off silently: no error, and running the listed part fails. *)
Theorem C129_truncated_refuted :
  exists ss plines rlines, part_list_lines ss = Ok plines /\ stage_lines x_host ss Run = Ok rlines /\
  (forall s, In s ss -> has_part s) /\
  exists ist y st, exec quiet 4 (args2 (L "kessler") []) [] (start 0 0 (fun _ => None)) plines = Some ist /\
    st_err ist = 0%Z /\ st_out ist = Some [Some y] /\
    exec quiet 4 (args2 (L "kessler") y) [] (start 0 0 (fun _ => None)) rlines = Some st /\
    st_err st = 1%Z /\ st_calls st = [].
Proof.
  exists [x_suite (L "kessler") [] [L "micro"]]. do 2 eexists. split; [vm_compute; reflexivity|]. split; [vm_compute; reflexivity|]. split.
  { intros s [<-|[]]. eexists. split; [left; reflexivity|]. cbn. intuition discriminate. }
  do 3 eexists. split; [vm_compute; reflexivity|]. split; [reflexivity|]. split; [reflexivity|]. split; [vm_compute; reflexivity|]. split; reflexivity.
Qed.
Print Assumptions C129_truncated_refuted.
