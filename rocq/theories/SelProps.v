(* SelProps.v: C91 (reading a suite definition file), C92 (the variables of the suites),
   C93 (the schemes and files of the suites), C94 (the modules with type definitions).
   Models scripts/mkstatic.py L683-765 and scripts/ccpp_prebuild.py L329-430, L581-617. *)
From Verif Require Import Base PyStr ReqModel ReqProofs StaticModel CommonModel DictModel DictProofs PreModel PreProofs SelModel SelSpec SelProofs.
From Coq Require Import Lia Permutation.
Open Scope nat_scope.
Open Scope list_scope.

(* ---------------- C91 ---------------- *)
(* A file that describes groups gs gives a suite with these groups, in order, and the
   schemes and routines recorded for it are exactly those of the groups. *)
Theorem C91_parse_partial sdf n l gs : Forall2 describes l gs -> length n <= 37 -> sdf = n ++ L ".xml" \/ sdf = L "suite_" ++ n ++ L ".xml" ->
  exists u, suite_parse sdf (Some n) l = Ok (Some u) /\ ps_name u = n /\ ps_groups u = gs /\ NoDup (ps_schemes u) /\ NoDup (ps_subs u) /\ recorded u.
Proof.
  intros F Len S1. unfold suite_parse.
  assert (E : negb (str_eqb sdf (n ++ L ".xml")) && negb (str_eqb sdf (L "suite_" ++ n ++ L ".xml")) = false).
  { destruct S1 as [->| ->]; rewrite str_eqb_refl; cbn [negb]; [reflexivity|apply andb_false_r]. }
  rewrite E. assert (E2 : (37 <? length n) = false) by (apply Nat.ltb_ge; exact Len). rewrite E2. rewrite (groups_ok _ _ F). cbn [bind].
  eexists. split; [reflexivity|]. cbn [ps_name ps_groups ps_schemes ps_subs]. repeat split; try apply nodup_dedup; apply (recorded_ok n gs).
Qed.
Print Assumptions C91_parse_partial.
(* Conversely, if every subcycle has a scheme, a suite that is read is one the file describes. *)
Theorem C91_sound sdf name l u : (forall e p, In e l -> e_tag e <> L "init" -> e_tag e <> L "finalize" -> In p (e_subs e) -> snd p <> []) ->
  suite_parse sdf name l = Ok (Some u) ->
  name = Some (ps_name u) /\ length (ps_name u) <= 37 /\ (sdf = ps_name u ++ L ".xml" \/ sdf = L "suite_" ++ ps_name u ++ L ".xml") /\
  Forall2 describes l (ps_groups u) /\ recorded u.
Proof.
  intros NE. unfold suite_parse. destruct (_ && _) eqn:E; [discriminate|]. destruct name as [n|]; [|discriminate].
  destruct (37 <? length n) eqn:E2; [discriminate|]. destruct (groups l None) as [[[gs sc] su]|] eqn:G; [|discriminate]. cbn [bind]. intros H. injection H as <-.
  cbn [ps_name ps_groups]. apply Nat.ltb_ge in E2. destruct (groups_inv l NE _ _ _ _ G) as (F & -> & ->). repeat split; auto; try apply (recorded_ok n gs).
  apply andb_false_iff in E as [E|E]; apply negb_false_iff, str_eqb_eq in E; auto.
Qed.
Print Assumptions C91_sound.
(* A file under another name, or a name longer than 37 characters, is refused. *)
Theorem C91_refused sdf n l : (sdf <> n ++ L ".xml" /\ sdf <> L "suite_" ++ n ++ L ".xml") \/ 37 < length n ->
  suite_parse sdf (Some n) l = Ok None.
Proof.
  intros H. unfold suite_parse. destruct (_ && _) eqn:E; [reflexivity|]. destruct H as [[A B]|H].
  - apply str_eqb_neq in A, B. rewrite A, B in E. discriminate.
  - apply Nat.ltb_lt in H. now rewrite H.
Qed.
Print Assumptions C91_refused.
(* But an element without a name attribute, as <init> and <finalize> have in the suite
   schema, always ends in an exception. *)
Theorem C91_init_refuted sdf n l e : In e l -> e_name e = None -> sdf = n ++ L ".xml" -> length n <= 37 ->
  exists x, suite_parse sdf (Some n) l = Raise x.
Proof.
  intros I N -> Len. unfold suite_parse. rewrite str_eqb_refl. cbn [negb andb]. apply Nat.ltb_ge in Len. rewrite Len.
  destruct (groups l None) as [q|x] eqn:G; [exfalso; exact (groups_noname l (ex_intro _ e (conj I N)) _ _ G)|]. cbn [bind]. eauto.
Qed.
Print Assumptions C91_init_refuted.
(* and a subcycle without schemes takes the loop count of the one before, or stops the run
   if it is the first. *)
Theorem C91_empty_subcycle_refuted a s n ts g1 : py_int s = Some n -> ts <> [] ->
  (exists u, suite_parse (L "s.xml") (Some (L "s")) [mkE (L "group") (Some g1) None [(Some s, map Some ts); (a, [])]] = Ok (Some u) /\
             ps_groups u = [mkGroup g1 GRegular [mkSub n ts; mkSub n []]]) /\
  forall r, suite_parse (L "s.xml") (Some (L "s")) [mkE (L "group") (Some g1) None ((a, []) :: r)] = Raise "UnboundLocalError".
Proof.
  intros P NE. split; [|reflexivity]. unfold suite_parse. cbn [groups e_name e_tag e_subs negb andb str_eqb].
  change (negb (str_eqb (L "s.xml") (L "s" ++ L ".xml"))) with false. cbn [andb Nat.ltb Nat.leb length]. cbn [subcycles].
  rewrite (sub_schemes_ok _ _ _ P). cbn [bind fst snd sub_schemes subcycles]. destruct ts as [|t ts]; [congruence|].
  change (str_eqb (L "group") (L "init") || str_eqb (L "group") (L "finalize")) with false. eexists. split; reflexivity.
Qed.
Print Assumptions C91_empty_subcycle_refuted.
Definition ex_elems : list elem :=
  [mkE (L "group") (Some (L "fast")) None [(Some (L "1"), [Some (L "a")]); (Some (L "3"), [Some (L "b"); Some (L "a")])];
   mkE (L "finalize") (Some (L "x")) (Some (L "wrap")) []].
Definition ex_groups : list group :=
  [mkGroup (L "fast") GRegular [mkSub 1 [L "a"]; mkSub 3 [L "b"; L "a"]]; mkGroup (L "finalize") GFinalize [mkSub 1 [L "wrap"]]].
Example C91_ex : Forall2 describes ex_elems ex_groups.
Proof.
  constructor; [|constructor; [|constructor]].
  - split; [discriminate|]. right. right. split; [discriminate|]. split; [discriminate|]. split; [reflexivity|]. split; [reflexivity|].
    constructor; [|constructor; [|constructor]]; (split; [eexists; split; reflexivity|split; [reflexivity|discriminate]]).
  - split; [discriminate|]. right. left. split; [reflexivity|]. eexists. split; reflexivity.
Qed.
Example C91_ex2 : exists u, suite_parse (L "suite_s.xml") (Some (L "s")) ex_elems = Ok (Some u) /\ ps_schemes u = [L "a"; L "b"; L "wrap"].
Proof. eexists. split; vm_compute; reflexivity. Qed.

(* ---------------- C92 ---------------- *)
(* For schemes with clean names, a variable is kept exactly when some routine that asks for
   it is one the suites call, and it is kept with all its requests. *)
Theorem C92_kept_partial (m : meta) suites : NoDup (map fst m) -> (forall u, In u suites -> recorded u) ->
  (forall k l v, get k m = Some l -> In v l -> exists mo t s, plain mo /\ plain t /\ clean t /\ requested_by v mo t s) ->
  exists out, filter_metadata m suites = Ok out /\
  forall k l, get k m = Some l ->
    (get k out = Some l /\ exists v, In v l /\ called_var suites v) \/
    (get k out = None /\ forall v, In v l -> ~ called_var suites v).
Proof.
  intros N R H. unfold filter_metadata.
  destruct (filter_vars_ok m suites (called_var suites) (sorted (map fst m))) as (out & E & _ & K).
  - intros k I. apply (proj1 (in_sorted _ _)) in I. destruct (get k m) as [l|] eqn:G; [eauto|]. apply get_none in G. contradiction.
  - eapply Permutation_NoDup; [apply Permutation_sym, sorted_perm|exact N].
  - intros k l v I G Iv. destruct (H k l v G Iv) as (mo & t & s & P1 & P2 & C & Rq). exists (t ++ L "_" ++ stage_name s). split.
    + eapply subroutine_of_ok; [exact P1|exact P2| |exact Rq]. destruct P2 as [P2 _]. intros J. apply in_app_or in J as [J|J]; [auto|].
      apply in_app_or in J as [[J|[]]|J]; [discriminate|]. now apply (name_no_space s).
    + rewrite (abbreviate_clean _ _ C), subs_exists. split.
      * intros (u & Iu & X). apply (short_in_subs u t s (R u Iu)) in X. exists mo, t, s. repeat (split; [assumption|]). exists u. auto.
      * intros (mo' & t' & s' & P1' & P2' & C' & Rq' & (u & Iu & X)).
        assert (A : t ++ L "_" ++ stage_name s = t' ++ L "_" ++ stage_name s').
        { assert (NS : forall (t : str) s, plain t -> ~ In " "%char (t ++ L "_" ++ stage_name s)).
          { intros t0 s0 [Q _] J. apply in_app_or in J as [J|J]; [auto|]. apply in_app_or in J as [[J|[]]|J]; [discriminate|]. now apply (name_no_space s0). }
          pose proof (subroutine_of_ok _ _ _ _ P1 P2 (NS t s P2) Rq) as Q1. pose proof (subroutine_of_ok _ _ _ _ P1' P2' (NS t' s' P2') Rq') as Q2. congruence. }
        assert (B : t ++ L "_" ++ stage_short s = t' ++ L "_" ++ stage_short s') by (rewrite <- !abbreviate_clean by assumption; now rewrite A).
        apply last_us in B as [-> B]; auto using short_no_us. apply short_inj in B as ->. exists u. split; [exact Iu|]. now apply short_in_subs; [apply R|].
  - exists out. split; [exact E|]. intros k l G. assert (I : In k (sorted (map fst m))) by (apply in_sorted; now apply get_some_key in G).
    destruct (K k I) as [[A (l' & v & G' & Iv & U)]|[A B]].
    + left. rewrite G in *. injection G' as <-. split; [exact A|eauto].
    + right. split; [exact A|]. intros v Iv. now apply (B l).
Qed.
Print Assumptions C92_kept_partial.
(* The scheme of the suite's <finalize> element is not one of them: a variable only its
   finalize routine asks for is dropped although the suite calls it. *)
Theorem C92_suite_finalize_refuted u t mo k v : recorded u -> In (mkGroup (L "finalize") GFinalize [mkSub 1 [t]]) (ps_groups u) -> ~ in_regular u t ->
  plain mo -> plain t -> clean t -> requested_by v mo t Final -> filter_metadata [(k, [v])] [u] = Ok [].
Proof.
  intros R I NR P1 P2 C Rq. destruct (C92_kept_partial [(k, [v])] [u]) as (out & E & K).
  - repeat constructor. intros [].
  - intros u' [<-|[]]. exact R.
  - intros k' l v' G Iv. cbn [get] in G. destruct (str_eqb k' k); [|discriminate]. injection G as <-. destruct Iv as [<-|[]]. exists mo, t, Final. auto.
  - assert (G : get k [(k, [v])] = Some [v]) by (cbn; now rewrite str_eqb_refl). destruct (K k [v] G) as [[_ (v' & [<-|[]] & mo' & t' & s' & P1' & P2' & C' & Rq' & u' & [<-|[]] & D)]|[A _]].
    + exfalso. assert (NS : forall (t : str) s, plain t -> ~ In " "%char (t ++ L "_" ++ stage_name s)).
      { intros t0 s0 [Q _] J. apply in_app_or in J as [J|J]; [auto|]. apply in_app_or in J as [[J|[]]|J]; [discriminate|]. now apply (name_no_space s0). }
      pose proof (subroutine_of_ok _ _ _ _ P1 P2 (NS t Final P2) Rq) as Q1. pose proof (subroutine_of_ok _ _ _ _ P1' P2' (NS t' s' P2') Rq') as Q2.
      assert (B : t ++ L "_" ++ stage_short Final = t' ++ L "_" ++ stage_short s') by (rewrite <- !abbreviate_clean by assumption; congruence).
      apply last_us in B as [<- B]; auto using short_no_us. apply short_inj in B as <-. destruct D as [D|[D _]]; [auto|discriminate].
    + rewrite E. f_equal. unfold filter_metadata in E. cbn [map fst] in E. change (sorted [k]) with [k] in E. cbn [filter_vars] in E. rewrite G in E.
      destruct (keep_var [v] [u]) as [[|]|]; cbn in E; try discriminate; injection E as <-; [|reflexivity]. cbn in A. rewrite str_eqb_refl in A. discriminate.
Qed.
Print Assumptions C92_suite_finalize_refuted.
(* Scheme names with a stage name inside lose their variables. *)
Definition ex_req (t : str) (s : stage) : pvar :=
  mkP (L "air_temperature") (L "K") (L "t") (L "real") 1 (L "kind_phys") (L "in") (L "MODULE_" ++ t ++ L " SCHEME_" ++ t ++ L " SUBROUTINE_" ++ t ++ L "_" ++ stage_name s) None None None.
Definition ex_suite_of (t : str) : psuite :=
  mkPS (L "s") [mkGroup (L "g") GRegular [mkSub 1 [t]]] [t] (map (fun s => t ++ L "_" ++ stage_short s) stages).
Theorem C92_name_refuted : forall t, In t [L "finalizer"; L "x_timestep_init_y"; L "my_finalize"] ->
  forall s, filter_metadata [(L "air_temperature", [ex_req t s])] [ex_suite_of t] = Ok [].
Proof. intros t [<-|[<-|[<-|[]]]] s; destruct s; vm_compute; reflexivity. Qed.
Print Assumptions C92_name_refuted.
Theorem C92_timestep_refuted : filter_metadata [(L "air_temperature", [ex_req (L "big_timestep") Init])] [ex_suite_of (L "big_timestep")] = Ok [].
Proof. vm_compute. reflexivity. Qed.
Print Assumptions C92_timestep_refuted.
Example C92_ex : filter_metadata [(L "b", [ex_req (L "other") Run]); (L "air_temperature", [ex_req (L "other") Run; ex_req (L "rad") Final])] [ex_suite_of (L "rad")]
  = Ok [(L "air_temperature", [ex_req (L "other") Run; ex_req (L "rad") Final])].
Proof. vm_compute. reflexivity. Qed.
Example C92_ex_names : plain (L "rad") /\ clean (L "rad") /\ requested_by (ex_req (L "rad") Final) (L "rad") (L "rad") Final.
Proof.
  split; [split; [cbn; intuition discriminate|now apply decide_occurs]|]. split; [|reflexivity].
  split; [now apply decide_occurs|]. split; [now apply decide_occurs|]. split; [now apply decide_occurs|].
  intros (a & E). destruct a as [|? [|? [|? [|? a]]]]; cbn in E; try discriminate. all: injection E; intros; destruct a; discriminate.
Qed.

(* ---------------- C93 ---------------- *)
(* The check passes exactly when every scheme of every suite has an argument table. *)
Theorem C93_check args suites : check_schemes args suites = true <-> forall u t, In u suites -> in_suite u t -> In t args.
Proof. apply check_schemes_spec. Qed.
Print Assumptions C93_check.
(* The argument lists, dependencies and files that are kept are exactly those of the schemes
   of the suites. *)
Theorem C93_filter {A} (d : list (str * A)) suites : (forall u, In u suites -> recorded u) -> forall t x,
  get t (filter_schemes d suites) = Some x <-> get t d = Some x /\ exists u, In u suites /\ in_suite u t.
Proof.
  intros R t x. unfold filter_schemes. rewrite (filter_get (fun k => existsb (fun u => mem k (ps_schemes u)) suites)).
  destruct (existsb _ suites) eqn:E.
  - apply suites_exists in E as (u & I & J). split; [|tauto]. intros G. split; [exact G|]. exists u. split; [exact I|]. now apply (proj1 (R u I)).
  - split; [discriminate|]. intros (_ & u & I & J). exfalso. assert (X : existsb (fun u => mem t (ps_schemes u)) suites = true) by (apply suites_exists; exists u; split; [exact I|]; now apply (proj1 (R u I))).
    congruence.
Qed.
Print Assumptions C93_filter.
(* Hence, if the check passes, the list of files to compile has, once each, the file of every
   scheme of every suite, the files those schemes depend on and those the host's definitions
   depend on, and nothing else. *)
Theorem C93_compile files (deps deps2 : list (str * list str)) suites : NoDup (map fst deps) ->
  (forall u, In u suites -> recorded u) -> check_schemes (flat_map snd files) suites = true ->
  let out := to_compile (filter_schemes (in_files files) suites) (filter_schemes deps suites) deps2 in
  NoDup out /\
  (forall u t, In u suites -> in_suite u t -> exists f, last_file files t f /\ In f out) /\
  (forall f, In f out <-> (exists u t, In u suites /\ in_suite u t /\ (last_file files t f \/ exists l, get t deps = Some l /\ In f l)) \/ exists t l, In (t, l) deps2 /\ In f l).
Proof.
  intros ND R C out.
  assert (W : forall (A : Type) (d : list (str * A)) t (x : A), NoDup (map fst d) -> (In (t, x) d <-> get t d = Some x)).
  { intros A d t x N. split; [now apply in_get|apply get_in]. }
  assert (NF : NoDup (map fst (in_files files))).
  { unfold in_files. assert (G : forall l (d : list (str * str)), NoDup (map fst d) -> NoDup (map fst (fold_left (fun d p => fold_left (fun d t => set t (fst p) d) (snd p) d) l d))).
    { induction l as [|[f ts] l IH]; intros d N; cbn [fold_left fst snd]; [exact N|]. apply IH. clear IH. revert d N. induction ts as [|t ts IH]; intros d N; cbn [fold_left]; [exact N|]. apply IH. now apply nodup_set. }
    apply G. constructor. }
  assert (NFil : forall (A : Type) (d : list (str * A)), NoDup (map fst d) -> NoDup (map fst (filter_schemes d suites))).
  { intros A d. unfold filter_schemes. induction d as [|[k x] d IH]; cbn [List.filter map fst]; intros N; [constructor|]. inversion N; subst.
    destruct (existsb _ suites); [|auto]. cbn [map fst]. constructor; [|auto]. intros I. apply in_map_iff in I as (p & <- & I). apply filter_In in I as [I _]. apply H1. now apply in_map. }
  assert (M : forall f, In f out <-> (exists u t, In u suites /\ in_suite u t /\ (last_file files t f \/ exists l, get t deps = Some l /\ In f l)) \/ exists t l, In (t, l) deps2 /\ In f l).
  { intros f. unfold out, to_compile. rewrite in_dedup, !in_app_iff, in_map_iff, !in_flat_map. split.
    - intros [(p & <- & I)|[(p & I & J)|(p & I & J)]].
      + destruct p as [t g]. left. apply (W _ _ t g (NFil _ _ NF)) in I. apply C93_filter in I as (G & u & Iu & S1); [|exact R]. exists u, t. apply in_files_spec in G. auto.
      + destruct p as [t l]. left. apply (W _ _ t l (NFil _ _ ND)) in I. apply C93_filter in I as (G & u & Iu & S1); [|exact R]. exists u, t. repeat split; auto. right. exists l. auto.
      + destruct p as [t l]. right. eauto.
    - intros [(u & t & Iu & S1 & [F|(l & G & J)])|(t & l & I & J)].
      + left. exists (t, f). split; [reflexivity|]. apply (W _ _ t f (NFil _ _ NF)). apply C93_filter; [exact R|]. split; [now apply in_files_spec|eauto].
      + right. left. exists (t, l). split; [|exact J]. apply (W _ _ t l (NFil _ _ ND)). apply C93_filter; [exact R|]. split; [exact G|eauto].
      + right. right. exists (t, l). auto. }
  split; [apply nodup_dedup|]. split; [|exact M]. intros u t Iu S1.
  assert (It : In t (flat_map snd files)) by (apply (proj1 (check_schemes_spec _ _) C u); assumption).
  assert (X : exists f, last_file files t f).
  { clear -It. induction files as [|[f ts] files IH] using rev_ind; [destruct It|]. rewrite flat_map_app in It. apply in_app_or in It as [It|It].
    - destruct (in_dec (list_eq_dec Ascii.ascii_dec) t ts) as [J|J]; [exists f, files, ts, []; repeat split; auto|].
      destruct (IH It) as (g & a & ts' & b & -> & I & N). exists g, a, ts', (b ++ [(f, ts)]). rewrite <- app_assoc. repeat split; auto. intros p K. apply in_app_or in K as [K|[<-|[]]]; auto.
    - cbn in It. rewrite app_nil_r in It. exists f, files, ts, []. repeat split; auto. }
  destruct X as (f & F). exists f. split; [exact F|]. apply M. left. eauto 8.
Qed.
Print Assumptions C93_compile.
Example C93_ex : recorded (mkPS (L "s") ex_groups (dedup (all_schemes ex_groups)) (dedup (all_subs ex_groups))) /\
  check_schemes (flat_map snd [(L "/p/a.F90", [L "a"; L "unused"]); (L "/p/b.F90", [L "b"; L "wrap"])]) [mkPS (L "s") ex_groups [] []] = true.
Proof. split; [apply recorded_ok|reflexivity]. Qed.
Example C93_ex2 : to_compile (filter_schemes (in_files [(L "/p/a.F90", [L "a"]); (L "/p/b.F90", [L "b"; L "wrap"]); (L "/p/c.F90", [L "c"])]) [mkPS (L "s") ex_groups (dedup (all_schemes ex_groups)) []])
    (filter_schemes [(L "a", [L "/p/m.F"]); (L "c", [L "/p/n.F"])] [mkPS (L "s") ex_groups (dedup (all_schemes ex_groups)) []]) [(L "host", [L "/p/h.F"; L "/p/m.F"])]
  = [L "/p/a.F90"; L "/p/b.F90"; L "/p/m.F"; L "/p/h.F"].
Proof. vm_compute. reflexivity. Qed.

(* ---------------- C94 ---------------- *)
Lemma def_spec v : is_typedef v || is_kinddef v = true <-> defines_type v \/ defines_kind v.
Proof.
  unfold is_typedef, is_kinddef, defines_type, defines_kind. rewrite orb_true_iff, !andb_true_iff, !negb_true_iff, mem_not, str_eqb_neq, !str_eqb_eq.
  change standard_types with [L "character"; L "integer"; L "logical"; L "real"]. rewrite starts_spec. tauto.
Qed.
(* The list of modules has, once each and in lower case with the ending .mod, the module of
   every host variable that defines a derived type or a kind, and no other; the step fails
   exactly when one of these is not defined in a module. *)
Theorem C94_modules d : (forall v, In v d -> defines_type v \/ defines_kind v -> exists c, decode_container_as_dict (p_cont v) = Ok c) ->
  exists ok out, typedefs d [] true = Ok (ok, out) /\ NoDup out /\
   (forall f, In f out <-> exists v c m, In v d /\ (defines_type v \/ defines_kind v) /\ decode_container_as_dict (p_cont v) = Ok c /\ get (L "MODULE") c = Some m /\ f = lower (m ++ L ".mod")) /\
   (ok = false <-> exists v c, In v d /\ (defines_type v \/ defines_kind v) /\ decode_container_as_dict (p_cont v) = Ok c /\ get (L "MODULE") c = None).
Proof.
  intros H. destruct (typedefs_ok d [] true) as (ok & out & E & N & A & B); [constructor|intros v I T; apply H; [exact I|now apply def_spec]|].
  exists ok, out. split; [exact E|]. split; [exact N|]. split.
  - intros f. rewrite A. split; [intros [[]|(v & c & m & I & T & X)]; exists v, c, m; apply def_spec in T; auto|intros (v & c & m & I & T & X); right; exists v, c, m; apply def_spec in T; auto].
  - rewrite B. split; [intros [D|(v & c & I & T & X)]; [discriminate|]; exists v, c; apply def_spec in T; auto|intros (v & c & I & T & X); right; exists v, c; apply def_spec in T; auto].
Qed.
Print Assumptions C94_modules.
Definition ex_tv (std ty units cont : string) : pvar := mkP (L std) (L units) (L std) (L ty) 0 [] (L "none") (L cont) None None None.
Example C94_ex : typedefs [ex_tv "ddt_a" "ddt_a" "DDT" "MODULE_Types TYPE_ddt_a"; ex_tv "kind_phys" "integer" "none" "MODULE_machine"; ex_tv "ccpp_t" "ccpp_t" "DDT" "MODULE_ccpp_types";
    ex_tv "kind_x" "integer" "none" "MODULE_MACHINE"; ex_tv "air" "real" "K" "MODULE_data"] [] true = Ok (true, [L "types.mod"; L "machine.mod"]).
Proof. vm_compute. reflexivity. Qed.
Example C94_ex2 : defines_type (ex_tv "ddt_a" "ddt_a" "DDT" "MODULE_Types TYPE_ddt_a") /\ defines_kind (ex_tv "kind_phys" "integer" "none" "MODULE_machine").
Proof. split; [repeat split; cbn; try discriminate; intuition discriminate|]. split; [now exists (L "phys")|split; reflexivity]. Qed.
