(* MkProps.v: C87 (the file lists for the host's build system) and C88 (rewriting of the
   generated caps).  Models scripts/ccpp_prebuild.py L610-722, scripts/mkcap.py L428-828,
   and the write methods of scripts/mkstatic.py. *)
From Verif Require Import PyStr ReqModel ReqProofs MkModel MkSpec MkProofs CheckProofs.
From Coq Require Import Lia Permutation.
Open Scope nat_scope.
Open Scope list_scope.

(* ---------------- C87 ---------------- *)
(* Whatever lists the runs before had, and whatever other files were there, after a
   complete run the three files of typedefs are those of the last list. *)
Theorem C87_typedefs_current (f : fs) (history : list (list str)) (l : list str) :
  f (Mk, false) = None -> Forall (Forall one_line) history -> Forall one_line l ->
  current (fold_left gen_typedefs (history ++ [l]) f)
    (simple_makefile "types" "TYPEDEFS" (sorted l)) (cmakefile "types" "TYPEDEFS" (sorted l)) (sourcefile "types" "CCPP_TYPEDEFS" (sorted l)).
Proof.
  intros. apply (gen_history (simple_makefile "types" "TYPEDEFS") (cmakefile "types" "TYPEDEFS") (sourcefile "types" "CCPP_TYPEDEFS") one_line); auto.
  intros a b A B. now apply simple_inj.
Qed.
Print Assumptions C87_typedefs_current.
Theorem C87_caps_current (f : fs) (history : list (list str)) (l : list str) :
  f (Mk, false) = None -> Forall (Forall one_line) history -> Forall one_line l ->
  current (fold_left gen_caps (history ++ [l]) f)
    (simple_makefile "caps" "CAPS_F90" (sorted l)) (cmakefile "caps" "CAPS" (sorted l)) (sourcefile "caps" "CCPP_CAPS" (sorted l)).
Proof.
  intros. apply (gen_history (simple_makefile "caps" "CAPS_F90") (cmakefile "caps" "CAPS") (sourcefile "caps" "CCPP_CAPS") one_line); auto.
  intros a b A B. now apply simple_inj.
Qed.
Print Assumptions C87_caps_current.
(* For schemes: if all files have one of the four endings. *)
Theorem C87_schemes_current_partial (f : fs) (history : list (list str)) (l : list str) :
  f (Mk, false) = None -> Forall (Forall (fun x => one_line x /\ known_suffix x)) history -> Forall (fun x => one_line x /\ known_suffix x) l ->
  current (fold_left gen_schemes (history ++ [l]) f)
    (schemes_makefile (sorted l)) (cmakefile "schemes" "SCHEMES" (sorted l)) (sourcefile "schemes" "CCPP_SCHEMES" (sorted l)).
Proof.
  intros. apply (gen_history schemes_makefile (cmakefile "schemes" "SCHEMES") (sourcefile "schemes" "CCPP_SCHEMES") (fun x => one_line x /\ known_suffix x)); auto.
  apply schemes_inj.
Qed.
Print Assumptions C87_schemes_current_partial.
(* What the three texts are: the cmakefile is, line by line, ... *)
Lemma split_lines (l : list string) (r : str) : Forall (fun s => ~ In nl (L s)) l -> split_on nl (lines l ++ r) = map L l ++ split_on nl r.
Proof.
  induction l as [|s l IH]; intros F; [reflexivity|].
  unfold lines. cbn [map List.concat]. rewrite <- !app_assoc. cbn [app]. rewrite split_app by now inversion F.
  cbn [app]. f_equal. apply IH. now inversion F.
Qed.
Lemma split_items (pre r : str) (l : list str) : ~ In nl pre -> Forall one_line l ->
  split_on nl (List.concat (map (fun s => pre ++ s ++ [nl]) l) ++ r) = map (fun s => pre ++ s) l ++ split_on nl r.
Proof.
  intros P. induction l as [|s l IH]; intros F; [reflexivity|].
  cbn [map List.concat]. replace ((pre ++ s ++ [nl]) ++ _) with (pre ++ s ++ [nl] ++ List.concat (map (fun s => pre ++ s ++ [nl]) l)) by now rewrite <- !app_assoc.
  rewrite <- !app_assoc. rewrite app_assoc. cbn [app]. rewrite split_app.
  - cbn [app]. f_equal. apply IH. now inversion F.
  - apply nl_app; [exact P|]. now inversion F.
Qed.
Theorem C87_cmakefile_lines (l : list str) : Forall one_line l ->
  split_on nl (cmakefile "schemes" "SCHEMES" (sorted l)) =
    map L [""; "# All CCPP schemes are defined here."; "#"; "# This file is auto-generated using ccpp_prebuild.py";
           "# at compile time, do not edit manually."; "#"; "set(SCHEMES"]%string ++
    map (fun x => L "      " ++ x) (sorted l) ++ [L ")"; []] /\
  Permutation (sorted l) l.
Proof.
  intros F. split; [|apply sorted_perm].
  assert (N : Forall (fun s => ~ In nl (L s)) ["# All CCPP schemes are defined here."; "#"; "# This file is auto-generated using ccpp_prebuild.py";
           "# at compile time, do not edit manually."; "#"; "set(SCHEMES"]%string).
  { repeat constructor; intros I; cbn in I; repeat (destruct I as [I|I]; [discriminate I|]); destruct I. }
  unfold cmakefile, head.
  assert (E : L "set(" ++ L "SCHEMES" ++ [nl] ++ List.concat (map (fun s => L "      " ++ s ++ [nl]) (sorted l)) ++ L ")" ++ [nl]
     = lines ["set(SCHEMES"%string] ++ List.concat (map (fun s => L "      " ++ s ++ [nl]) (sorted l)) ++ L ")" ++ [nl]) by reflexivity.
  rewrite E. clear E.
  match goal with |- split_on nl ((nl :: ?a) ++ ?b ++ ?c) = _ => change (split_on nl ([] ++ nl :: (a ++ b ++ c)) = map L [""; "# All CCPP schemes are defined here."; "#"; "# This file is auto-generated using ccpp_prebuild.py";
           "# at compile time, do not edit manually."; "#"; "set(SCHEMES"]%string ++
    map (fun x => L "      " ++ x) (sorted l) ++ [L ")"; []]) end.
  rewrite split_app by (intros []). cbn [map app]. f_equal.
  rewrite split_lines by (inversion N; subst; repeat (constructor; [intros I; cbn in I; repeat (destruct I as [I|I]; [discriminate I|]); destruct I|]); constructor).
  rewrite split_lines by (repeat (constructor; [intros I; cbn in I; repeat (destruct I as [I|I]; [discriminate I|]); destruct I|]); constructor).
  rewrite split_items; [|intros I; cbn in I; repeat (destruct I as [I|I]; [discriminate I|]); destruct I|now apply forall_sorted].
  reflexivity.
Qed.
Print Assumptions C87_cmakefile_lines.
(* ... and the order in which the files were found does not matter. *)
Theorem C87_order_irrelevant (f : fs) (l l' : list str) : Permutation l l' ->
  gen_typedefs f l = gen_typedefs f l' /\ gen_schemes f l = gen_schemes f l' /\ gen_caps f l = gen_caps f l'.
Proof. intros P. unfold gen_typedefs, gen_schemes, gen_caps. rewrite (sorted_unique l l' P). auto. Qed.
Print Assumptions C87_order_irrelevant.
Definition p1 : str := L "phys/a.F90".
Definition p2 : str := L "phys/b.f".
Definition p3 : str := L "phys/c.c".
Definition empty_fs : fs := fun _ => None.
Example C87_ex : Forall (fun x => one_line x /\ known_suffix x) [p2; p1] /\
  gen_schemes (gen_schemes empty_fs [p1]) [p2; p1] (Cm, false) =
    Some (cmakefile "schemes" "SCHEMES" [p1; p2]) /\ sorted [p2; p1] = [p1; p2].
Proof.
  split; [|split; vm_compute; reflexivity].
  repeat (constructor; [split; [intros I; cbn in I; repeat (destruct I as [I|I]; [discriminate I|]); destruct I|]|]); [| |constructor].
  - exists (L "phys/b"). right. right. left. reflexivity.
  - exists (L "phys/a"). right. left. reflexivity.
Qed.
(* Refuted for other endings: the makefile lists no such file, and because only the
   makefile is compared, adding one to the list leaves all three files as they were. *)
Theorem C87_other_suffix_refuted :
  exists l x, Forall one_line (x :: l) /\ ~ known_suffix x /\
    schemes_makefile (sorted (x :: l)) = schemes_makefile (sorted l) /\
    let f := gen_schemes empty_fs l in
    let g := gen_schemes f (x :: l) in
    (forall t, g (t, false) = f (t, false)) /\
    g (Cm, false) <> Some (cmakefile "schemes" "SCHEMES" (sorted (x :: l))) /\
    g (Src, false) <> Some (sourcefile "schemes" "CCPP_SCHEMES" (sorted (x :: l))).
Proof.
  exists [p1; p2], p3. split.
  { repeat (constructor; [intros I; cbn in I; repeat (destruct I as [I|I]; [discriminate I|]); destruct I|]); constructor. }
  split.
  { intros (b & [E|[E|[E|E]]]); apply (f_equal (@rev ascii)) in E; rewrite rev_app_distr in E; vm_compute in E; discriminate. }
  split; [vm_compute; reflexivity|]. cbn zeta. split.
  - intros []; vm_compute; reflexivity.
  - split; intros E; vm_compute in E; discriminate.
Qed.
Print Assumptions C87_other_suffix_refuted.
(* Refuted if a run is killed: stopped between the first and the second rename, the next
   run with the same list finds the makefile as it should be and never makes the others. *)
Definition caps_ops (f : fs) (l : list str) : list op :=
  let l := sorted l in
  trio_ops f (simple_makefile "caps" "CAPS_F90" l) (cmakefile "caps" "CAPS" l) (sourcefile "caps" "CCPP_CAPS" l).
Theorem C87_killed_refuted (l : list str) :
  exists k, k < length (caps_ops empty_fs l) /\
  let f := crash empty_fs (caps_ops empty_fs l) k None in
  forall n, let g := fold_left gen_caps (List.repeat l n) f in
    g (Mk, false) = Some (simple_makefile "caps" "CAPS_F90" (sorted l)) /\ g (Cm, false) = None /\ g (Src, false) = None.
Proof.
  exists 4. split; [cbn; lia|]. cbn zeta.
  set (f := crash _ _ _ _).
  assert (H : f (Mk, false) = Some (simple_makefile "caps" "CAPS_F90" (sorted l)) /\ f (Cm, false) = None /\ f (Src, false) = None).
  { unfold f, crash, caps_ops. repeat split; reflexivity. }
  clearbody f. intros n. revert f H. induction n as [|n IH]; intros f (H1 & H2 & H3); [cbn; auto|].
  cbn [List.repeat fold_left]. apply IH. unfold gen_caps. rewrite !trio_keeps by exact H1. auto.
Qed.
Print Assumptions C87_killed_refuted.
Example C87_killed_ex : crash empty_fs (caps_ops empty_fs [p1]) 4 None (Cm, true) = Some (cmakefile "caps" "CAPS" [p1]).
Proof. vm_compute. reflexivity. Qed.
(* Killed earlier, on a first build, the next run repairs everything. *)
Theorem C87_killed_early (f : fs) (l l' : list str) k junk : f (Mk, false) = None -> k <= 3 ->
  current (gen_caps (crash f (caps_ops f l) k junk) l')
    (simple_makefile "caps" "CAPS_F90" (sorted l')) (cmakefile "caps" "CAPS" (sorted l')) (sourcefile "caps" "CCPP_CAPS" (sorted l')).
Proof.
  intros H K. apply trio_current. intros E. exfalso. revert E.
  unfold caps_ops, trio_ops, crash, same_content, is_file. rewrite H.
  assert (C : k = 0 \/ k = 1 \/ k = 2 \/ k = 3) by lia.
  destruct C as [->|[->|[->| ->]]]; destruct junk, (f (Cm, false)), (f (Src, false)); cbn; unfold upd; cbn; rewrite ?H; discriminate.
Qed.
Print Assumptions C87_killed_early.

(* ---------------- C88 ---------------- *)
(* Whatever was in the build directory, after a complete run every group cap, suite cap,
   the API and the include file hold the text generated for them. *)
Theorem C88_content now (ss : list scaps) (api inc : str * cfile) :
  let '(outs, a, i) := write_all now ss api inc in
  Forall2 (fun s o => Forall2 (fun p f => holds (fst p) f) (sc_groups s) (so_groups o) /\ holds (fst (sc_suite s)) (so_suite o)) ss outs /\
  holds (fst api) a /\ holds (fst inc) i.
Proof.
  unfold write_all. cbn zeta. set (e := existsb _ _).
  pose proof (write_cap_spec now e (fst api) (snd api)) as A. destruct (write_cap now e (fst api) (snd api)) as [a u].
  pose proof (write_cap_spec now u (fst inc) (snd inc)) as I. destruct (write_cap now u (fst inc) (snd inc)) as [i v].
  split; [|split; [apply A|apply I]].
  clear. induction ss as [|s ss IH]; constructor; [|exact IH].
  unfold write_suite. pose proof (write_groups_spec now (sc_groups s)) as G. destruct (write_groups now (sc_groups s)) as [gs any].
  pose proof (write_cap_spec now any (fst (sc_suite s)) (snd (sc_suite s))) as S. destruct (write_cap now any (fst (sc_suite s)) (snd (sc_suite s))) as [f w].
  cbn. split; [|apply S]. destruct G as [G _]. clear -G. induction G; constructor; tauto.
Qed.
Print Assumptions C88_content.
(* If everything was already up to date nothing is rewritten (so nothing is recompiled). *)
Theorem C88_untouched now (ss : list scaps) (api inc : str * cfile) :
  Forall (fun s => Forall up_to_date (sc_groups s) /\ up_to_date (sc_suite s)) ss -> up_to_date api -> up_to_date inc ->
  let '(outs, a, i) := write_all now ss api inc in
  Forall2 (fun s o => Forall2 (fun p f => cf_file f = cf_file (snd p)) (sc_groups s) (so_groups o) /\ cf_file (so_suite o) = cf_file (snd (sc_suite s))) ss outs /\
  cf_file a = cf_file (snd api) /\ cf_file i = cf_file (snd inc).
Proof.
  intros U UA UI. unfold write_all. cbn zeta.
  assert (K : existsb so_update (map (write_suite now) ss) = false /\
    Forall2 (fun s o => Forall2 (fun p f => cf_file f = cf_file (snd p)) (sc_groups s) (so_groups o) /\ cf_file (so_suite o) = cf_file (snd (sc_suite s))) ss (map (write_suite now) ss)).
  { induction U as [|s ss [U1 U2] _ IH]; [split; constructor|]. destruct IH as [IH1 IH2].
    cbn [map existsb]. destruct (write_suite now s) as [og os ou] eqn:EW. cbn [so_update so_groups so_suite]. unfold write_suite in EW.
    pose proof (write_groups_spec now (sc_groups s)) as G. destruct (write_groups now (sc_groups s)) as [gs any].
    pose proof (write_cap_spec now any (fst (sc_suite s)) (snd (sc_suite s))) as S. destruct (write_cap now any (fst (sc_suite s)) (snd (sc_suite s))) as [f w].
    destruct G as [G1 G2], S as (_ & _ & S3 & S4).
    injection EW as <- <- <-.
    assert (w = false) as ->. { apply S4. split; [now apply G2|]. now destruct (sc_suite s). }
    cbn [orb]. split; [exact IH1|]. constructor; [|exact IH2]. cbn. split; [|now apply S3].
    clear -G1 U1. induction G1 as [|p f l l' H _ IH]; constructor; [|apply IH; now inversion U1]. apply H. now inversion U1. }
  destruct K as [-> K].
  pose proof (write_cap_spec now false (fst api) (snd api)) as A. destruct (write_cap now false (fst api) (snd api)) as [a u].
  destruct A as (_ & _ & A3 & A4). assert (u = false) as -> by (apply A4; split; [reflexivity|now destruct api]).
  pose proof (write_cap_spec now false (fst inc) (snd inc)) as I. destruct (write_cap now false (fst inc) (snd inc)) as [i v].
  destruct I as (_ & _ & I3 & I4). assert (v = false) as -> by (apply I4; split; [reflexivity|now destruct inc]).
  split; [exact K|]. split; auto.
Qed.
Print Assumptions C88_untouched.
(* If any group cap was not up to date, the suite's cap, the API and the include file are
   rewritten in the same run, even if their texts did not change. *)
Theorem C88_propagates now (ss : list scaps) (api inc : str * cfile) :
  let '(outs, a, i) := write_all now ss api inc in
  Forall2 (fun s o => (Exists (fun p => ~ up_to_date p) (sc_groups s) -> written_at now (so_suite o)) /\
                      Forall2 (fun p f => ~ up_to_date p -> written_at now f) (sc_groups s) (so_groups o)) ss outs /\
  (Exists (fun s => Exists (fun p => ~ up_to_date p) (sc_groups s) \/ ~ up_to_date (sc_suite s)) ss -> written_at now a /\ written_at now i).
Proof.
  unfold write_all. cbn zeta.
  assert (ND : forall gs, Exists (fun p => ~ up_to_date p) gs -> ~ Forall up_to_date gs).
  { induction 1 as [p l H|p l _ IH]; intros F; inversion F; auto. }
  assert (K : forall s, let o := write_suite now s in
    (Exists (fun p => ~ up_to_date p) (sc_groups s) -> written_at now (so_suite o)) /\
    Forall2 (fun p f => ~ up_to_date p -> written_at now f) (sc_groups s) (so_groups o) /\
    (Exists (fun p => ~ up_to_date p) (sc_groups s) \/ ~ up_to_date (sc_suite s) -> so_update o = true)).
  { intros s. cbn zeta. unfold write_suite.
    pose proof (write_groups_spec now (sc_groups s)) as G. destruct (write_groups now (sc_groups s)) as [gs any].
    pose proof (write_cap_spec now any (fst (sc_suite s)) (snd (sc_suite s))) as S. destruct (write_cap now any (fst (sc_suite s)) (snd (sc_suite s))) as [f w].
    destruct G as [G1 G2], S as (_ & S2 & S3 & S4). cbn [so_update so_groups so_suite].
    assert (W : Exists (fun p => ~ up_to_date p) (sc_groups s) \/ ~ up_to_date (sc_suite s) -> w = true).
    { intros H. destruct w; [reflexivity|]. exfalso. destruct S4 as [S4 _]. destruct (S4 eq_refl) as [A B].
      destruct H as [H|H]; [apply ND in H; apply H, G2, A|]. apply H. now destruct (sc_suite s). }
    split; [intros H; apply S2, W; now left|]. split; [|exact W].
    clear -G1. induction G1; constructor; tauto. }
  destruct (write_cap now (existsb so_update (map (write_suite now) ss)) (fst api) (snd api)) as [a u] eqn:EA.
  destruct (write_cap now u (fst inc) (snd inc)) as [i v] eqn:EI. split.
  - clear EA. induction ss as [|s ss IH]; constructor; [|exact IH]. destruct (K s) as (K1 & K2 & _). split; assumption.
  - intros X.
    assert (existsb so_update (map (write_suite now) ss) = true) as B.
    { apply Exists_exists in X as (s & Hs & H). apply existsb_exists. exists (write_suite now s). split; [now apply in_map|]. now apply K. }
    rewrite B in EA.
    pose proof (write_cap_spec now true (fst api) (snd api)) as A. rewrite EA in A. destruct A as (_ & A2 & _ & A4).
    assert (u = true) as ->. { destruct u; [reflexivity|]. destruct A4 as [A4 _]. destruct (A4 eq_refl). discriminate. }
    pose proof (write_cap_spec now true (fst inc) (snd inc)) as I. rewrite EI in I. destruct I as (_ & I2 & _ & I4).
    assert (v = true) as ->. { destruct v; [reflexivity|]. destruct I4 as [I4 _]. destruct (I4 eq_refl). discriminate. }
    auto.
Qed.
Print Assumptions C88_propagates.
(* Hence, in any history of complete runs, a group cap is never newer than the cap of its
   suite. *)
Definition next (s : scaps) (o : sout) (texts : list str) (text : str) : scaps := mkSC (combine texts (so_groups o)) (text, so_suite o).
Definition stamp (f : cfile) : nat := match cf_file f with Some (_, t) => t | None => 0 end.
Fixpoint runs (now : nat) (s : scaps) (texts : list (list str * str)) : nat * scaps :=
  match texts with
  | [] => (now, s)
  | (gt, st) :: rest => let o := write_suite now s in runs (now + 1) (next s o gt st) rest
  end.
Definition not_newer (s : scaps) : Prop := Forall (fun p => stamp (snd p) <= stamp (snd (sc_suite s))) (sc_groups s).
Lemma write_suite_stamps now s : not_newer s -> Forall (fun p => stamp (snd p) <= now) (sc_groups s) -> stamp (snd (sc_suite s)) <= now ->
  let o := write_suite now s in
  Forall (fun f => stamp f <= stamp (so_suite o)) (so_groups o) /\ Forall (fun f => stamp f <= now) (so_groups o) /\ stamp (so_suite o) <= now.
Proof.
  intros N B1 B2. cbn zeta. unfold write_suite.
  pose proof (write_groups_spec now (sc_groups s)) as G. destruct (write_groups now (sc_groups s)) as [gs any].
  pose proof (write_cap_spec now any (fst (sc_suite s)) (snd (sc_suite s))) as S. destruct (write_cap now any (fst (sc_suite s)) (snd (sc_suite s))) as [f w].
  destruct G as [G1 G2], S as (_ & S2 & S3 & S4). cbn [so_update so_groups so_suite].
  assert (DEC : forall p, up_to_date p \/ ~ up_to_date p).
  { intros [c g]. unfold up_to_date. cbn. destruct (cf_file g) as [[d t]|]; [|right; intros (t & H); discriminate].
    destruct (str_eqb d c) eqn:E; [apply str_eqb_eq in E; subst; left; eauto|right; intros (t' & H); injection H as -> ->; rewrite str_eqb_refl in E; discriminate]. }
  assert (B : Forall (fun f => stamp f <= now) gs).
  { clear -G1 B1 DEC. induction G1 as [|p f l l' (H1 & H2 & H3) _ IH]; constructor; [|apply IH; now inversion B1].
    destruct (DEC p) as [U|U].
    - unfold stamp. rewrite (H2 U). inversion B1; subst. assumption.
    - destruct (H3 U) as (c & E). unfold stamp. rewrite E. lia. }
  split; [|split; [exact B|]].
  - destruct w.
    + destruct (S2 eq_refl) as (c & E). unfold stamp at 2. rewrite E. exact B.
    + destruct S4 as [S4 _]. destruct (S4 eq_refl) as [-> _]. assert (AU : Forall up_to_date (sc_groups s)) by now apply G2.
      unfold stamp at 2. rewrite (S3 eq_refl). fold (stamp (snd (sc_suite s))).
      unfold not_newer in N. clear -G1 AU N. induction G1 as [|p f l l' (H1 & H2 & H3) _ IH]; constructor.
      * inversion AU; inversion N; subst. unfold stamp at 1. rewrite H2 by assumption. assumption.
      * apply IH; [now inversion N|now inversion AU].
  - destruct w; [destruct (S2 eq_refl) as (c & E); unfold stamp; rewrite E; lia|]. unfold stamp. rewrite (S3 eq_refl). exact B2.
Qed.
Lemma forall_combine {A} (P : cfile -> Prop) (a : list A) b : Forall P b -> Forall (fun p => P (snd p)) (combine a b).
Proof. revert b. induction a as [|x a IH]; intros [|y b] F; cbn; constructor; [now inversion F|apply IH; now inversion F]. Qed.
Theorem C88_history (texts : list (list str * str)) : forall now s,
  not_newer s -> Forall (fun p => stamp (snd p) <= now) (sc_groups s) -> stamp (snd (sc_suite s)) <= now ->
  let '(_, s') := runs now s texts in not_newer s'.
Proof.
  induction texts as [|[gt st] rest IH]; intros now s N B1 B2; cbn [runs]; [exact N|].
  destruct (write_suite_stamps now s N B1 B2) as (W1 & W2 & W3). cbn zeta in W1, W2, W3. apply IH.
  - unfold not_newer, next. cbn [sc_groups sc_suite snd]. now apply (forall_combine (fun f => stamp f <= stamp (so_suite (write_suite now s)))).
  - unfold next. cbn [sc_groups]. apply (forall_combine (fun f => stamp f <= now + 1)). eapply Forall_impl; [|exact W2]. cbn. lia.
  - unfold next. cbn [sc_suite snd]. lia.
Qed.
Print Assumptions C88_history.
Definition none : cfile := mkF None None.
Definition at_ (c : string) (t : nat) : cfile := mkF (Some (L c, t)) None.
Definition s0 : scaps := mkSC [(L "g1", none); (L "g2", none)] (L "s", none).
Example C88_ex : not_newer s0 /\ runs 1 s0 [([L "g1"; L "g2x"], L "s"); ([L "g1"; L "g2x"], L "s")] =
  (3, mkSC [(L "g1", at_ "g1" 1); (L "g2x", at_ "g2x" 2)] (L "s", at_ "s" 2)).
Proof. split; [repeat constructor|vm_compute; reflexivity]. Qed.
Example C88_ex_untouched : Forall (fun s => Forall up_to_date (sc_groups s) /\ up_to_date (sc_suite s)) [mkSC [(L "g1", at_ "g1" 1)] (L "s", at_ "s" 1)].
Proof. repeat constructor; cbn; exists 1; reflexivity. Qed.
(* Refuted if a run may be killed: stopped after the group caps, the next complete run
   leaves the suite's cap older than its group. *)
Theorem C88_killed_refuted :
  exists s texts text, let gs := fst (write_groups 1 (sc_groups s)) in
    let killed := mkSC (combine texts gs) (text, snd (sc_suite s)) in      (* run 1 stops before the suite's cap *)
    not_newer s /\ map fst (sc_groups s) = texts /\ fst (sc_suite s) = text /\
    let o := write_suite 2 killed in
    ~ Forall (fun f => stamp f <= stamp (so_suite o)) (so_groups o) /\ so_update o = false.
Proof.
  exists (mkSC [(L "new", at_ "old" 0)] (L "s", at_ "s" 0)), [L "new"], (L "s"). cbn zeta.
  split; [repeat constructor|]. do 2 (split; [reflexivity|]). split; [|reflexivity].
  intros F. vm_compute in F. inversion F; subst. lia.
Qed.
Print Assumptions C88_killed_refuted.
(* A '.test' file left by a killed run is not removed by a run that rewrites the cap. *)
Theorem C88_finding_test_file_stays now c f t : cf_file f = None -> cf_test f = Some t ->
  cf_test (fst (write_cap now false c f)) = Some t.
Proof. intros H T. unfold write_cap. rewrite H. exact T. Qed.
Print Assumptions C88_finding_test_file_stays.
Example C88_test_file_ex : cf_test (fst (write_cap 1 false (L "x") (mkF None (Some (L "y", 0))))) = Some (L "y", 0).
Proof. reflexivity. Qed.
