(* TrackProps.v: C39, the track of a variable through a suite. *)
From Verif Require Import PyStr DictModel DictProofs ReqModel ReqProofs TrackModel TrackSpec.
Open Scope nat_scope.
Open Scope list_scope.

Lemma loop_count_ok sc n : loop_count sc = Ok n <-> exists s, sc_loop sc = Some s /\ py_int s = Some n.
Proof.
  unfold loop_count. destruct (sc_loop sc) as [s|].
  - destruct (py_int s) as [m|] eqn:E; split.
    + intros H. injection H as ->. eauto.
    + intros (t & Q & P). injection Q as <-. congruence.
    + discriminate.
    + intros (t & Q & P). injection Q as <-. congruence.
  - split; [discriminate|intros (s & Q & _); discriminate].
Qed.
Lemma subcycle_ok b sc p : parse_subcycle b sc = Ok p ->
  fst p = true /\ exists s n, sc_loop sc = Some s /\ py_int s = Some n /\ snd p = List.concat (List.repeat (sc_schemes sc) (Z.to_nat n)).
Proof.
  unfold parse_subcycle. intros H. apply bind_ok in H as (b' & _ & H). destruct b'; [|discriminate].
  cbn [negb] in H. apply bind_ok in H as (n & N & H). injection H as <-. apply loop_count_ok in N as (s & S & P).
  split; auto. exists s, n. auto.
Qed.
Lemma subcycles_ok : forall scs b acc p, parse_subcycles b scs acc = Ok p ->
  exists l, snd p = acc ++ l /\ group_calls scs l.
Proof.
  induction scs as [|sc r IH]; intros b acc p H; cbn [parse_subcycles] in H.
  - injection H as <-. exists []. split; [now rewrite app_nil_r|constructor].
  - apply bind_ok in H as (q & Q & H). apply subcycle_ok in Q as (_ & s & n & S & P & E).
    apply IH in H as (l & E' & G). rewrite E in E'. rewrite <- app_assoc in E'. eexists. split; [exact E'|].
    now apply gc_cons with s.
Qed.
Lemma groups_ok : forall gs b ct ct',
  NoDup (map ge_name gs) -> (forall g n, In g gs -> ge_name g = Some n -> ~ In n (map fst ct)) ->
  parse_groups b gs ct = Ok ct' ->
  exists t, ct' = ct ++ t /\
    Forall2 (fun g e => ge_name g = Some (fst e) /\
                        (suite_wide g /\ snd e = [] \/ ~ suite_wide g /\ group_calls (ge_sub g) (snd e))) gs t.
Proof.
  assert (forall (ct : tree) n v, ~ In n (map fst ct) -> set n v ct = ct ++ [(n, v)]) as SET.
  { induction ct as [|[k w] r IH]; intros n v H; cbn [set app]; auto. cbn [map fst In] in H.
    destruct (str_eqb n k) eqn:E; [apply str_eqb_eq in E; subst; tauto|]. now rewrite IH by tauto. }
  induction gs as [|g gs IH]; intros b ct ct' ND NI H; cbn [parse_groups] in H.
  - injection H as <-. exists []. split; [now rewrite app_nil_r|constructor].
  - destruct (ge_name g) as [n|] eqn:N; [|discriminate].
    cbn [map] in ND. inversion ND as [|? ? ND1 ND2]; subst.
    assert (~ In n (map fst ct)) as NN by (apply (NI g n); auto; now left).
    assert (forall v g' n', In g' gs -> ge_name g' = Some n' -> ~ In n' (map fst (set n v ct))) as NI'.
    { intros v g' n' G' N' I. rewrite SET, map_app in I by auto. apply in_app_or in I as [I|[<-|[]]].
      - apply (NI g' n'); auto. now right.
      - apply ND1. rewrite N. apply in_map_iff. exists g'. auto. }
    destruct (str_eqb (ge_tag g) (L "init") || str_eqb (ge_tag g) (L "finalize")) eqn:T.
    + apply IH in H as (t & -> & F); [|exact ND2|intros; eapply NI'; eauto]. rewrite SET by auto. exists ((n, []) :: t). split; [now rewrite <- app_assoc|].
      constructor; auto. split; auto. left. split; auto. apply orb_true_iff in T as [T|T]; apply str_eqb_eq in T; [left|right]; exact T.
    + apply bind_ok in H as (p & P & H). apply subcycles_ok in P as (l & E & G). cbn [app] in E.
      apply IH in H as (t & -> & F); [|exact ND2|intros; eapply NI'; eauto]. rewrite SET by auto. exists ((n, snd p) :: t). split; [now rewrite <- app_assoc|].
      constructor; auto. split; auto. right. cbn [snd]. rewrite E. split; auto.
      intros [W|W]; rewrite W, str_eqb_refl in T; [discriminate|]. now rewrite orb_true_r in T.
Qed.

Lemma find_intent_hit var vars i : find_intent var vars = Some i ->
  exists pre post, vars = pre ++ (var, i) :: post /\ ~ In var (map fst pre).
Proof.
  induction vars as [|[n j] r IH]; cbn [find_intent]; [discriminate|]. destruct (str_eqb var n) eqn:E.
  - intros H. injection H as ->. apply str_eqb_eq in E as ->. exists [], r. auto.
  - intros H. destruct (IH H) as (pre & post & -> & N). exists ((n, j) :: pre), post. split; auto.
    cbn [map fst In]. apply str_eqb_neq in E. intros [->|I]; auto.
Qed.
Lemma find_intent_miss var vars : find_intent var vars = None -> ~ In var (map fst vars).
Proof.
  induction vars as [|[n j] r IH]; cbn [find_intent map fst In]; auto. destruct (str_eqb var n) eqn:E; [discriminate|].
  apply str_eqb_neq in E. intros H [->|I]; auto. now apply IH.
Qed.
Lemma section_hits var ss : hits var ss (flat_map (section_entry var) ss).
Proof.
  induction ss as [|s r IH]; cbn [flat_map]; [constructor|]. unfold section_entry at 1.
  destruct (find_intent var (se_vars s)) as [i|] eqn:F; cbn [app].
  - apply find_intent_hit in F as (pre & post & E & N). now apply hits_yes with pre post.
  - apply find_intent_miss in F. now apply hits_no.
Qed.
Lemma scheme_sections var s f : scheme_entries var s f = flat_map (section_entry var) (sections_of f s).
Proof.
  unfold scheme_entries, sections_of. induction (mf_tables f) as [|t ts IH]; cbn [flat_map List.filter]; auto.
  destruct (str_eqb (mt_name t) s); cbn [map List.concat app]; auto. now rewrite flat_map_app, IH.
Qed.
Lemma set_all (f : mfile) : forall ss (d : list (str * mfile)) k,
  get k (fold_left (fun d s => set s f d) ss d) = if mem k ss then Some f else get k d.
Proof.
  induction ss as [|s ss IH]; intros d k; cbn [fold_left mem existsb]; auto.
  rewrite IH. fold (mem k ss). destruct (mem k ss); [now rewrite orb_true_r|]. rewrite get_set, orb_false_r. reflexivity.
Qed.
Lemma dict_file : forall files (d : list (str * mfile)) k f,
  get k (fold_left (fun d f => fold_left (fun d s => set s f d) (mf_schemes f) d) files d) = Some f ->
  file_of files k f \/ get k d = Some f /\ forall g, In g files -> ~ In k (mf_schemes g).
Proof.
  induction files as [|f0 files IH]; intros d k f H; cbn [fold_left] in H; [right; split; auto|].
  apply IH in H as [(pre & post & -> & I & N)|[H N]].
  - left. exists (f0 :: pre), post. auto.
  - rewrite set_all in H. destruct (mem k (mf_schemes f0)) eqn:M.
    + injection H as <-. left. exists [], files. apply mem_in in M. auto.
    + right. split; auto. intros g [<-|G]; auto. now apply mem_not.
Qed.
Lemma dict_file_complete : forall files (d : list (str * mfile)) k,
  (exists f, In f files /\ In k (mf_schemes f)) \/ get k d <> None ->
  get k (fold_left (fun d f => fold_left (fun d s => set s f d) (mf_schemes f) d) files d) <> None.
Proof.
  induction files as [|f0 files IH]; intros d k H; cbn [fold_left].
  - destruct H as [(f & [] & _)|H]; auto.
  - apply IH. rewrite set_all. destruct (mem k (mf_schemes f0)) eqn:M; [right; discriminate|].
    destruct H as [(f & [->|I] & K)|H]; auto.
    + apply mem_in in K. congruence.
    + left. eauto.
Qed.
Lemma entries_tracked files d var : filename_dict files = Ok d -> forall calls es,
  group_entries d var calls = Ok es -> tracked files var calls es.
Proof.
  intros D. assert (d = fold_left (fun d f => fold_left (fun d s => set s f d) (mf_schemes f) d) files []) as ED.
  { destruct files; [discriminate|]. now injection D as <-. }
  induction calls as [|s calls IH]; intros es H; cbn [group_entries] in H.
  - injection H as <-. constructor.
  - destruct (get s d) as [f|] eqn:G; [|discriminate]. apply bind_ok in H as (es' & E & H). injection H as <-.
    rewrite ED in G. apply dict_file in G as [FO|[G _]]; [|discriminate].
    apply tr_cons with f; auto. rewrite scheme_sections. apply section_hits.
Qed.
Lemma graph_tracked files d var : filename_dict files = Ok d -> forall ct g, graph d var ct = Ok g ->
  Forall2 (fun c e => fst c = fst e /\ tracked files var (snd c) (snd e)) ct g.
Proof.
  intros D. induction ct as [|[n calls] ct IH]; intros g H; cbn [graph] in H.
  - injection H as <-. constructor.
  - apply bind_ok in H as (es & E & H). apply bind_ok in H as (rest & R & H). injection H as <-.
    constructor; auto. split; auto. now apply entries_tracked with d.
Qed.
Lemma F2_trans {A B C} (R : A -> B -> Prop) (S : B -> C -> Prop) l : forall m n, Forall2 R l m -> Forall2 S m n ->
  Forall2 (fun a c => exists b, R a b /\ S b c) l n.
Proof.
  induction l as [|a l IH]; intros m n H K; inversion H; subst; inversion K; subst; constructor; eauto.
Qed.

Theorem C39_track : forall gs files var ct success g,
  NoDup (map ge_name gs) ->
  call_tree gs = Ok ct -> create_var_graph files var ct = Ok (success, g) ->
  Forall2 (fun x e => ge_name x = Some (fst e) /\
             exists calls, (suite_wide x /\ calls = [] \/ ~ suite_wide x /\ group_calls (ge_sub x) calls) /\
                           tracked files var calls (snd e)) gs g /\
  (success = true <-> exists e, In e g /\ snd e <> []).
Proof.
  intros gs files var ct success g ND CT H. unfold call_tree in CT.
  apply groups_ok in CT as (t & E & F); auto. cbn [app] in E. subst t.
  unfold create_var_graph in H. apply bind_ok in H as (d & D & H). apply bind_ok in H as (g' & G & H). injection H as <- <-.
  apply graph_tracked with (files := files) in G; auto. split.
  - pose proof (F2_trans _ _ _ _ _ F G) as K. revert K. clear. induction 1 as [|x e xs es (c & (N & C) & Q & T) _ IH]; constructor; auto.
    rewrite <- Q. split; auto. exists (snd c). auto.
  - rewrite existsb_exists. split; intros (e & I & N); exists e; split; auto; destruct (snd e); auto; discriminate.
Qed.
Print Assumptions C39_track.

(* the intents listed are those of the metadata, and nothing is left out *)
Lemma hits_in var ss es : hits var ss es -> forall t i,
  In (t, i) es <-> exists s pre post, In s ss /\ se_title s = t /\ se_vars s = pre ++ (var, i) :: post /\ ~ In var (map fst pre).
Proof.
  induction 1 as [|s r es N H IH|s r es pre i0 post E N H IH]; intros t i.
  - split; [easy|]. intros (s & ? & ? & [] & _).
  - rewrite IH. split.
    + intros (s' & p & q & I & R). exists s', p, q. split; [now right|auto].
    + intros (s' & p & q & [<-|I] & T & E & P); [|exists s', p, q; auto].
      exfalso. apply N. rewrite E, map_app. apply in_or_app. right. now left.
  - cbn [In]. rewrite IH. split.
    + intros [Q|(s' & p & q & I & R)].
      * injection Q as <- <-. exists s, pre, post. auto.
      * exists s', p, q. auto.
    + intros (s' & p & q & [<-|I] & T & E' & P); [|right; exists s', p, q; auto]. left.
      rewrite E in E'. assert (pre = p /\ i0 = i) as [_ ->]; [|congruence].
      clear -E' N P. revert p E' P. induction pre as [|[a b] pre IH]; intros [|[a' b'] p] E P.
      * injection E as -> _. auto.
      * injection E as <- _ _. exfalso. apply P. now left.
      * injection E as -> _ _. exfalso. apply N. now left.
      * injection E as -> -> E. cbn [map fst In] in N, P. destruct (IH (fun K => N (or_intror K)) p E (fun K => P (or_intror K))) as [-> ->]. auto.
Qed.
Theorem C39_entries : forall files var calls es, tracked files var calls es -> forall t i,
  In (t, i) es <-> exists scheme f s pre post, In scheme calls /\ file_of files scheme f /\ In s (sections_of f scheme) /\
                     se_title s = t /\ se_vars s = pre ++ (var, i) :: post /\ ~ In var (map fst pre).
Proof.
  assert (forall files s f g, file_of files s f -> file_of files s g -> f = g) as U.
  { intros files s f g (pre & post & -> & I & N) (pre' & post' & E & I' & N').
    revert pre' E. induction pre as [|a pre IH]; intros [|a' pre'] E; cbn [app] in E; injection E as -> E; auto.
    - exfalso. apply (N g); auto. rewrite E. apply in_elt.
    - exfalso. apply (N' f); auto. rewrite <- E. apply in_elt.
    - now apply IH with pre'. }
  induction 1 as [|s calls f es es' FO H T IH]; intros t i.
  - split; [easy|]. intros (? & ? & ? & ? & ? & [] & _).
  - rewrite in_app_iff, IH, (hits_in _ _ _ H). split.
    + intros [(s' & p & q & I & R)|(sc & f' & s' & p & q & I & R)].
      * exists s, f, s', p, q. split; [now left|auto].
      * exists sc, f', s', p, q. split; [now right|auto].
    + intros (sc & f' & s' & p & q & [<-|I] & FO' & R).
      * left. rewrite (U files s f f' FO FO'). exists s', p, q. auto.
      * right. exists sc, f', s', p, q. auto.
Qed.
Print Assumptions C39_entries.

(* when it works: every element named, every count an integer, no empty subcycle, and every
   scheme called described by a metadata file *)
Theorem C39_total : forall gs files var,
  (forall g, In g gs -> ge_name g <> None) ->
  (forall g sc, In g gs -> ~ suite_wide g -> In sc (ge_sub g) -> sc_schemes sc <> [] /\ exists s n, sc_loop sc = Some s /\ py_int s = Some n) ->
  (forall g sc s, In g gs -> In sc (ge_sub g) -> In s (sc_schemes sc) -> exists f, In f files /\ In s (mf_schemes f)) ->
  files <> [] ->
  exists ct r, call_tree gs = Ok ct /\ create_var_graph files var ct = Ok r.
Proof.
  intros gs files var NM LP SC NF.
  assert (forall gs' b ct, (forall g, In g gs' -> In g gs) ->
     (forall e s, In e ct -> In s (snd e) -> exists f, In f files /\ In s (mf_schemes f)) ->
     exists ct', parse_groups b gs' ct = Ok ct' /\ forall e s, In e ct' -> In s (snd e) -> exists f, In f files /\ In s (mf_schemes f)) as P.
  { induction gs' as [|g gs' IH]; intros b ct SUB CT; cbn [parse_groups]; [eauto|].
    destruct (ge_name g) as [n|] eqn:N; [|exfalso; apply (NM g); auto; apply SUB; now left].
    assert (forall (m : tree) k v e, In e (set k v m) -> In e m \/ e = (k, v)) as SI.
    { intros m k v e I. apply set_in in I. tauto. }
    destruct (str_eqb (ge_tag g) (L "init") || str_eqb (ge_tag g) (L "finalize")) eqn:T.
    - apply IH; [intros; apply SUB; now right|]. intros e s I S. apply SI in I as [I| ->]; [eauto|easy].
    - assert (~ suite_wide g) as NS.
      { intros [W|W]; rewrite W, str_eqb_refl in T; [discriminate|]. now rewrite orb_true_r in T. }
      assert (forall scs b acc, (forall sc, In sc scs -> In sc (ge_sub g)) ->
        (forall s, In s acc -> exists f, In f files /\ In s (mf_schemes f)) ->
        exists p, parse_subcycles b scs acc = Ok p /\ forall s, In s (snd p) -> exists f, In f files /\ In s (mf_schemes f)) as Q.
      { induction scs as [|sc scs IS]; intros b0 acc SU AC; cbn [parse_subcycles]; [eauto|].
        destruct (LP g sc) as (NE & s & m & S & M); auto; [apply SUB; now left|apply SU; now left|].
        assert (parse_subcycle b0 sc = Ok (true, List.concat (List.repeat (sc_schemes sc) (Z.to_nat m)))) as ->.
        { unfold parse_subcycle. assert (loop_count sc = Ok m) as -> by (apply loop_count_ok; eauto).
          destruct (sc_schemes sc); [easy|]. reflexivity. }
        cbn [bind fst snd]. apply IS; [intros; apply SU; now right|].
        intros x X. apply in_app_or in X as [X|X]; auto. apply in_concat in X as (l & LI & X). apply List.repeat_spec in LI. subst l.
        apply (SC g sc); auto; [apply SUB; now left|apply SU; now left]. }
      destruct (Q (ge_sub g) b []) as (p & -> & PS); auto; [easy|]. cbn [bind].
      apply IH; [intros; apply SUB; now right|]. intros e s I S. apply SI in I as [I| ->]; eauto. }
  destruct (P gs false []) as (ct & CT & CS); auto; [easy|]. exists ct.
  unfold create_var_graph. destruct files as [|f0 fs]; [easy|]. cbn [filename_dict bind].
  set (d := fold_left _ (f0 :: fs) []).
  assert (forall t, (forall e s, In e t -> In s (snd e) -> exists f, In f (f0 :: fs) /\ In s (mf_schemes f)) -> exists g, graph d var t = Ok g) as G.
  { induction t as [|[n calls] t IH]; intros H; cbn [graph]; [eauto|].
    assert (exists es, group_entries d var calls = Ok es) as (es & ->).
    { assert (forall s, In s calls -> exists f, In f (f0 :: fs) /\ In s (mf_schemes f)) as HC by (intros s S; apply (H (n, calls)); auto; now left).
      clear -HC. induction calls as [|s calls IC]; cbn [group_entries]; [eauto|].
      destruct (get s d) as [f|] eqn:E.
      - destruct IC as (es & ->); [intros; apply HC; now right|]. cbn [bind]. eauto.
      - exfalso. revert E. apply dict_file_complete. left. apply HC. now left. }
    destruct IH as (g & ->); [intros e s E S; apply (H e s); auto; now right|]. cbn [bind]. eauto. }
  destruct (G ct CS) as (g & ->). cbn [bind]. eauto.
Qed.
Print Assumptions C39_total.

(* a called scheme without metadata is an error *)
Theorem C39_missing : forall gs files var ct e s,
  call_tree gs = Ok ct -> In e ct -> In s (snd e) -> (forall f, In f files -> ~ In s (mf_schemes f)) ->
  exists m, create_var_graph files var ct = Raise m.
Proof.
  intros gs files var ct e s _ E S N. destruct (create_var_graph files var ct) as [[b g]|m] eqn:H; [|eauto]. exfalso.
  unfold create_var_graph in H. apply bind_ok in H as (d & D & H). apply bind_ok in H as (g' & G & _).
  apply graph_tracked with (files := files) in G; auto.
  clear -E S N G. induction G as [|x c xs cs (Q & T) _ IH]; [easy|].
  destruct E as [->|E]; [|auto]. clear -T S N. induction T as [|s' calls f es es' (pre & post & -> & I & _) H T IH]; [easy|].
  destruct S as [->|S]; [|auto]. apply (N f); auto. apply in_elt.
Qed.
Print Assumptions C39_missing.

(* a suite with a subcycle of two turns *)
Definition ex_suite : list gelem :=
  [mkGE (L "group") (Some (L "rad")) [mkSC (Some (L "1")) [L "sw"; L "lw"]];
   mkGE (L "group") (Some (L "phys")) [mkSC (Some (L "2")) [L "pbl"]; mkSC (Some (L "1")) [L "lw"]]].
Definition ex_files : list mfile :=
  [mkMF [L "sw"] [mkMT (L "sw") [mkSec (L "sw_init") [(L "q", L "in")]; mkSec (L "sw_run") [(L "t", L "inout")]]];
   mkMF [L "lw"; L "pbl"] [mkMT (L "lw") [mkSec (L "lw_run") [(L "p", L "in"); (L "t", L "in")]];
                           mkMT (L "pbl") [mkSec (L "pbl_run") [(L "t", L "out")]]]].
Example C39_ex : NoDup (map ge_name ex_suite) /\
  (ct <- call_tree ex_suite ;; create_var_graph ex_files (L "t") ct) =
  Ok (true, [(L "rad", [(L "sw_run", L "inout"); (L "lw_run", L "in")]);
             (L "phys", [(L "pbl_run", L "out"); (L "pbl_run", L "out"); (L "lw_run", L "in")])]).
Proof. split; [|vm_compute; reflexivity]. vm_compute. repeat constructor; cbn [In]; intuition discriminate. Qed.
Example C39_ex_missing : exists ct, call_tree ex_suite = Ok ct /\ In (L "rad", [L "sw"; L "lw"]) ct.
Proof. eexists. split; [vm_compute; reflexivity|]. left. reflexivity. Qed.

(* FINDING: the call tree is a dictionary by group name, so of two groups of the same name
   only the second is tracked *)
Theorem C39_finding_same_name : exists gs ct, call_tree gs = Ok ct /\
  create_var_graph ex_files (L "t") ct = Ok (false, [(L "phys", [])]) /\
  exists g, In g gs /\ group_calls (ge_sub g) [L "lw"] /\ tracked ex_files (L "t") [L "lw"] [(L "lw_run", L "in")].
Proof.
  exists [mkGE (L "group") (Some (L "phys")) [mkSC (Some (L "1")) [L "lw"]];
          mkGE (L "group") (Some (L "phys")) []].
  eexists. split; [vm_compute; reflexivity|]. split; [vm_compute; reflexivity|].
  exists (mkGE (L "group") (Some (L "phys")) [mkSC (Some (L "1")) [L "lw"]]). split; [now left|]. split.
  - change [L "lw"] with (List.concat (List.repeat [L "lw"] (Z.to_nat 1)) ++ []). apply gc_cons with (L "1"); [reflexivity|vm_compute; reflexivity|constructor].
  - change [(L "lw_run", L "in")] with ([(L "lw_run", L "in")] ++ []). eapply tr_cons.
    + exists [nth 0 ex_files (mkMF [] [])], []. split; [reflexivity|]. split; [now left|easy].
    + apply hits_yes with [(L "p", L "in")] []; [reflexivity| |constructor]. vm_compute. intuition discriminate.
    + constructor.
Qed.
Print Assumptions C39_finding_same_name.
(* FINDING: an empty subcycle reads the variable loop that only a scheme sets *)
Theorem C39_finding_empty_subcycle : forall n tag l r,
  tag <> L "init" -> tag <> L "finalize" -> call_tree (mkGE tag (Some n) (mkSC l [] :: r) :: []) = Raise "UnboundLocalError".
Proof.
  intros n tag l r A B. unfold call_tree. cbn [parse_groups ge_name ge_tag ge_sub].
  apply str_eqb_neq in A, B. rewrite A, B. reflexivity.
Qed.
Print Assumptions C39_finding_empty_subcycle.
(* FINDING: the scheme of a suite-wide <init> or <finalize> is not tracked *)
Theorem C39_finding_suite_wide : forall n sub files var, files <> [] ->
  exists ct, call_tree [mkGE (L "init") (Some n) sub] = Ok ct /\ create_var_graph files var ct = Ok (false, [(n, [])]).
Proof. intros n sub files var F. exists [(n, [])]. split; [reflexivity|]. destruct files; [easy|]. reflexivity. Qed.
Print Assumptions C39_finding_suite_wide.
