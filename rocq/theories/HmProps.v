(* HmProps.v: C153 imports of the host cap, C154 accessibility of host variables, C155
   acceptance of host models, C156 loop variables of host tables. *)
From Verif Require Import PyStr Regex PhaseSpec DictModel DictProofs ReqModel ReqProofs CheckModel CheckSpec CheckProofs DdtModel DdtSpec DdtProps HmModel HmSpec HmProofs HmFind.
Open Scope nat_scope.
Open Scope list_scope.

(* ---- locations are unambiguous ---- *)
Lemma loc_keys ts x : In x (map fst (flat_map loc_of ts)) -> exists v, In v (table_vars ts) /\ f_local v = x.
Proof.
  intros I. apply in_map_iff in I as ([l m] & <- & I). apply loc_in in I as (t & v & IT & _ & _ & IV & E). exists v. split; auto. unfold table_vars.
  apply in_concat. exists (t_vars t). split; auto. now apply in_map.
Qed.
Lemma nodup_local l : NoDup (map low l) -> NoDup (map f_local l).
Proof.
  induction l as [|x l IH]; cbn [map]; intros H; [constructor|]. apply NoDup_cons_iff in H as [N H]. constructor; auto.
  intros I. apply N. apply in_map_iff in I as (y & E & I). apply in_map_iff. exists y. split; auto. unfold low. now rewrite E.
Qed.
Lemma loc_nodup_t : forall ts, NoDup (map low (table_vars ts)) -> NoDup (map fst (flat_map loc_of ts)).
Proof.
  induction ts as [|t ts IH]; intros N; [constructor|]. unfold table_vars in *. cbn [map List.concat] in N. rewrite map_app in N. apply nodup_app_iff in N as (A & B & C).
  cbn [flat_map]. rewrite map_app. apply nodup_app_iff. split; [|split; [auto|]].
  - unfold loc_of. destruct (str_eqb _ _); [|constructor]. unfold moved. rewrite map_map. cbn. now apply nodup_local.
  - intros x I J. apply loc_keys in J as (w & JW & EW). assert (X : exists v, In v (t_vars t) /\ f_local v = x).
    { unfold loc_of in I. destruct (str_eqb _ _); [|destruct I]. unfold moved in I. rewrite map_map in I. cbn in I. apply in_map_iff in I as (v & E & I). eauto. }
    destruct X as (v & IV & EV). apply (C (low v)); [now apply in_map|]. apply in_map_iff. exists w. split; auto. unfold low. congruence.
Qed.
Lemma nodup_rev {A} (l : list A) : NoDup l -> NoDup (rev l).
Proof. apply NoDup_rev. Qed.
Lemma all_loc_nodup lib consts n ts ms : consistent lib (all_vars consts n ts) ms -> NoDup (map fst (all_loc consts n ts)).
Proof.
  intros (_ & _ & _ & N & _). change (fun v : field => lower (f_local v)) with low in N. unfold all_vars in N. rewrite map_app in N. apply nodup_app_iff in N as (A & B & C).
  unfold all_loc. rewrite map_app, map_rev. apply nodup_app_iff. split; [destruct consts; repeat constructor; intros []|]. split; [now apply nodup_rev, loc_nodup_t|].
  intros x I J. apply in_rev in J. apply loc_keys in J as (w & JW & EW). destruct consts; [|destruct I]. destruct I as [E|[]]. cbn [fst] in E.
  apply (C (low w)); [now apply in_map|]. left. unfold low. now rewrite EW, <- E.
Qed.
Lemma all_loc_in lib consts n ts ms v m : consistent lib (all_vars consts n ts) ms -> In v (all_vars consts n ts) ->
  (get (f_local v) (all_loc consts n ts) = Some m <->
   (exists t, In t ts /\ mod_type t /\ t_title t = m /\ In v (t_vars t)) \/ (consts = true /\ v = constituents_object n /\ m = cap_name n)).
Proof.
  intros CO IV. assert (ND := all_loc_nodup _ _ _ _ _ CO). assert (TV : forall t w, In t ts -> In w (t_vars t) -> In w (all_vars consts n ts)).
  { intros t w IT IW. unfold all_vars. apply in_or_app. left. unfold table_vars. apply in_concat. exists (t_vars t). split; auto. now apply in_map. }
  split.
  - intros G. apply get_in in G. unfold all_loc in G. apply in_app_or in G as [G|G].
    + right. destruct consts; [|destruct G]. destruct G as [E|[]]. injection E as E1 E2. split; auto. split; auto. eapply low_inj; eauto. unfold all_vars. apply in_or_app. right. now left.
    + left. apply in_rev in G. apply loc_in in G as (t & w & IT & MT & ET & IW & EW). exists t. split; auto. split; auto. split; auto.
      assert (w = v) by (eapply low_inj; eauto). now subst w.
  - intros H. apply in_get; auto. unfold all_loc. apply in_or_app. destruct H as [(t & IT & MT & ET & JV)|(-> & -> & ->)].
    + right. apply -> in_rev. apply loc_in. eauto 10.
    + left. now left.
Qed.
Lemma table_in ts v : In v (table_vars ts) <-> exists t, In t ts /\ In v (t_vars t).
Proof.
  unfold table_vars. rewrite in_concat. split.
  - intros (l & I & J). apply in_map_iff in I as (t & <- & I). eauto.
  - intros (t & I & J). exists (t_vars t). split; auto. now apply in_map.
Qed.

(* ---- C153 ---- *)
(* the cap imports exactly the module variables that are used, each from its own module *)
Theorem C153_imports fuel lib consts name ts h f1 f2 reqs st ml :
  build fuel lib consts name ts = Ok h -> requests f1 h ([], []) reqs = Ok st -> locations f2 h st = Ok ml ->
  (forall v, In v (table_vars ts) -> f_local v <> L "1") ->
  exists n, named name ts = Some n /\ NoDup ml /\
    forall m l, In (m, l) ml <->
      exists t v, In t ts /\ t_type t = L "module" /\ t_title t = m /\ In v (t_vars t) /\ f_local v = l /\
        m <> [] /\ m <> n ++ L "_ccpp_cap" /\ used lib (all_vars consts n ts) reqs v.
Proof.
  intros HB HR HL N1. destruct (build_sound _ _ _ _ _ _ HB) as (n & ms & NM & ST & CO & MN & ML & TY & LO). exists n. split; auto.
  unfold locations in HL. apply b_inv in HL as (st1 & HT & HL). rewrite MN, ML, (proj1 ST) in HL. cbv zeta in HL. apply Ok_eq in HL.
  assert (U := used_iff lib h _ ms f1 f2 st reqs st1 ST CO HR HT). split.
  - subst ml. destruct CO as (_ & _ & _ & NL & _). change (fun v : field => lower (f_local v)) with low in NL. apply nodup_local in NL. revert NL. generalize (all_vars consts n ts) as vs. intros vs.
    assert (K : forall vs (p : str * str), In p (flat_map (fun e : str * field => let l := f_local (snd e) in
      match get l (all_loc consts n ts) with Some m => if negb (str_eqb m []) && mem l (fst st1) && negb (str_eqb m (cap_name n)) then [(m, l)] else [] | None => [] end) (map keyed vs)) -> In (snd p) (map f_local vs)).
    { induction vs0 as [|v vs0 IH]; intros p I; [destruct I|]. cbn [map flat_map] in I. apply in_app_or in I as [I|I]; [|right; auto]. left. cbn [keyed snd] in I.
      destruct (get _ _); [|destruct I]. destruct (_ && _); [|destruct I]. destruct I as [<-|[]]. reflexivity. }
    induction vs as [|v vs IH]; intros NL; [constructor|]. cbn [map flat_map]. cbn [map] in NL. apply NoDup_cons_iff in NL as [NV NL]. apply nodup_app_iff. split; [|split; [auto|]].
    + cbn [keyed snd]. destruct (get _ _); [|constructor]. destruct (_ && _); repeat constructor. intros [].
    + intros p I J. apply K in J. cbn [keyed snd] in I. destruct (get _ _); [|destruct I]. destruct (_ && _); [|destruct I]. destruct I as [<-|[]]. auto.
  - intros m l. subst ml. rewrite in_flat_map. split.
    + intros (e & I & J). apply in_map_iff in I as (v & <- & IV). cbn [keyed snd] in J. destruct (get (f_local v) (all_loc consts n ts)) as [m'|] eqn:G; [|destruct J].
      destruct (negb (str_eqb m' []) && mem (f_local v) (fst st1) && negb (str_eqb m' (cap_name n))) eqn:B; [|destruct J]. destruct J as [[= -> <-]|[]].
      rewrite !andb_true_iff, !negb_true_iff, !str_eqb_neq, mem_in in B. destruct B as ((B1 & B2) & B3).
      apply (all_loc_in lib consts n ts ms v m CO IV) in G as [(t & IT & MT & ET & JV)|(_ & _ & ->)]; [|now elim B3].
      exists t, v. split; auto. split; auto. split; auto. split; auto. split; auto. split; auto. split; [exact B3|].
      apply U in B2 as (w & UW & EW); [|apply N1; apply table_in; eauto]. assert (w = v) by (eapply low_inj; eauto; apply UW). now subst w.
    + intros (t & v & IT & MT & ET & JV & <- & B1 & B3 & UV). assert (IV : In v (all_vars consts n ts)) by (unfold all_vars; apply in_or_app; left; apply table_in; eauto).
      exists (keyed v). split; [now apply in_map|]. cbn [keyed snd]. assert (get (f_local v) (all_loc consts n ts) = Some m) as -> by (apply (all_loc_in lib consts n ts ms v m CO IV); left; eauto 10).
      assert (negb (str_eqb m []) && mem (f_local v) (fst st1) && negb (str_eqb m (cap_name n)) = true) as ->; [|now left].
      rewrite !andb_true_iff, !negb_true_iff, !str_eqb_neq, mem_in. split; [split; [auto|]|exact B3]. apply U; [apply N1; apply table_in; eauto|]. eauto.
Qed.
Print Assumptions C153_imports.

Definition v_state : field := mkF (L "phys_state") (L "physics_state_object") (L "physics_state") true.
Definition v_q : field := mkF (L "q(:,:,index_of_q)") (L "water_vapor") (L "real") false.
Definition v_t : field := mkF (L "T") (L "air_temperature") (L "real") false.
Definition v_ix : field := mkF (L "index_qv") (L "index_of_q") (L "integer") false.
Definition v_dt : field := mkF (L "dtime") (L "time_step") (L "real") false.
Definition v_beg : field := mkF (L "col_start") (L "horizontal_loop_begin") (L "integer") false.
Definition v_end : field := mkF (L "col_end") (L "horizontal_loop_end") (L "integer") false.
Definition v_err : field := mkF (L "errmsg") (L "ccpp_error_message") (L "character") false.
Definition x_lib : library := [(L "physics_state", [v_t; v_q])].
Definition x_tables : list table :=
  [mkT (L "module") (L "host_data") (L "host_data") [v_state; v_ix]; mkT (L "module") (L "host_time") (L "host_time") [v_dt];
   mkT (L "host") (L "my_host") (L "my_host") [v_beg; v_end; v_err]].
(* a component with a subscript: its structure and the subscript are imported, the time step is not *)
Example C153_example : exists h st ml, build 3 x_lib false None x_tables = Ok h /\
  requests 5 h ([], []) [L "water_vapor"; L "no_such_variable"; L "horizontal_loop_begin"] = Ok st /\ locations 5 h st = Ok ml /\
  (forall v, In v (table_vars x_tables) -> f_local v <> L "1") /\
  ml = [(L "host_data", L "phys_state"); (L "host_data", L "index_qv")].
Proof.
  eexists. eexists. eexists. split; [vm_compute; reflexivity|]. split; [vm_compute; reflexivity|]. split; [vm_compute; reflexivity|]. split; [|reflexivity].
  cbn. intros v [<-|[<-|[<-|[<-|[<-|[<-|[]]]]]]]; discriminate.
Qed.
(* a search returns, and returns a variable exactly if the host has one of that name *)
Theorem C153_answer fuel lib consts name ts h f1 st s r : build fuel lib consts name ts = Ok h -> find f1 h st s = Ok r -> s <> L "ccpp_constant_one" ->
  exists n, named name ts = Some n /\
  match fst r with
  | Some o => exists v c, In v (all_vars consts n ts) /\ part lib v c /\ f_std c = s /\ leaf o = c /\ own o = v
  | None => forall v c, In v (all_vars consts n ts) -> part lib v c -> f_std c <> s
  end.
Proof.
  intros HB HF NC. destruct (build_sound _ _ _ _ _ _ HB) as (n & ms & NM & ST & CO & _). exists n. split; auto. apply find_spec in HF as [E _]. rewrite E.
  destruct (lookup h s) as [o|] eqn:LO.
  - apply (lookup_spec lib h _ ms s o ST CO) in LO as [[-> _]|[(v & IV & EV & ->)|(v & c & IV & C & EV & ->)]]; [now elim NC| |].
    + exists v, v. cbn. split; auto. split; [now left|auto].
    + exists v, c. cbn. split; auto. split; [now right|auto].
  - intros v c IV P EV. assert (X : exists o, lookup h s = Some o); [|destruct X; congruence]. destruct P as [->|C].
    + exists (OVar v). apply (lookup_spec lib h _ ms s _ ST CO). right. left. eauto.
    + exists (ODdt v (OVar c)). apply (lookup_spec lib h _ ms s _ ST CO). right. right. eauto 10.
Qed.
Print Assumptions C153_answer.
Example C153_answer_example : exists h r, build 3 x_lib false None x_tables = Ok h /\ find 5 h ([], []) (L "water_vapor") = Ok r /\ L "water_vapor" <> L "ccpp_constant_one" /\ fst r = Some (ODdt v_state (OVar v_q)).
Proof. eexists. eexists. split; [vm_compute; reflexivity|]. split; [vm_compute; reflexivity|]. split; [discriminate|reflexivity]. Qed.
(* unless a variable has itself as subscript *)
Theorem C153_own_subscript fuel lib consts name ts h v st : build fuel lib consts name ts = Ok h -> In v (table_vars ts) -> index_in (f_local v) (f_std v) ->
  forall f1, exists e, find f1 h st (f_std v) = Raise e.
Proof.
  intros HB IV II. destruct (build_sound _ _ _ _ _ _ HB) as (n & ms & NM & ST & CO & _). apply indices_spec in II.
  assert (LO : lookup h (f_std v) = Some (OVar v)) by (apply (lookup_spec lib h _ ms _ _ ST CO); right; left; exists v; split; [unfold all_vars; apply in_or_app; now left|auto]).
  intros f1. revert st. induction f1 as [|f1 IH]; intros st; [now eexists|]. cbn [find]. rewrite LO. cbn [leaf].
  apply in_split in II as (a & b & ->). rewrite each_app.
  destruct (each _ st a) as [st1|e]; cbn [bind]; [|now eexists]. cbn [each]. destruct (IH st1) as (e & ->). cbn. now eexists.
Qed.
Print Assumptions C153_own_subscript.
Example C153_own_example : let v := mkF (L "tab(entry)") (L "entry") (L "real") false in
  index_in (f_local v) (f_std v) /\ exists h, build 3 [] false (Some (L "hst")) [mkT (L "module") (L "m") (L "m") [v]] = Ok h.
Proof. split; [apply indices_spec; vm_compute; now left|eexists; vm_compute; reflexivity]. Qed.

(* ---- C154 ---- *)
(* the dummy arguments of the cap are exactly the variables of host tables, the loop variables only in the run phase *)
Theorem C154_dummies fuel lib consts name ts h phase v : build fuel lib consts name ts = Ok h ->
  (In v (call_list h phase) <-> exists t, In t ts /\ t_type t = L "host" /\ In v (t_vars t) /\ (loop_std (f_std v) -> phase = L "run")).
Proof.
  intros HB. destruct (build_sound _ _ _ _ _ _ HB) as (n & ms & NM & ST & CO & MN & ML & TY & LO). unfold call_list. rewrite ML, (proj1 ST), map_map. cbn [keyed snd]. rewrite map_id.
  rewrite !filter_In.
  assert (INC : forall w, In w (all_vars consts n ts) -> (include (str_eqb phase (L "run")) (f_std w) = true <-> (loop_std (f_std w) -> phase = L "run"))).
  { intros w IW. destruct CO as (F & _ & NC & _). assert (NW := NC w (in_or_app _ _ _ (or_introl IW))). unfold include. rewrite <- loop_iff. fold const_one in NW. apply str_eqb_neq in NW. rewrite NW.
    rewrite <- str_eqb_eq. destruct (is_loop (f_std w)), (str_eqb phase (L "run")); cbn; intuition congruence. }
  split.
  - intros ((IV & IC) & G). assert (IC2 := proj1 (INC v IV) IC). clear IC. rename IC2 into IC. destruct (get (f_local v) (all_loc consts n ts)) as [m|] eqn:GE; [discriminate|].
    unfold all_vars in IV. apply in_app_or in IV as [IV|IV].
    + apply table_in in IV as (t & IT & JV). exists t. split; auto. rewrite Forall_forall in TY. destruct (TY t IT) as [MT|HT]; [exfalso|unfold host_type in HT; auto].
      assert (get (f_local v) (all_loc consts n ts) = Some (t_title t)); [|congruence]. apply (all_loc_in lib consts n ts ms v _ CO); [unfold all_vars; apply in_or_app; left; apply table_in; eauto|]. left. eauto 10.
    + exfalso. destruct consts; [|destruct IV]. destruct IV as [<-|[]]. assert (get (f_local (constituents_object n)) (all_loc true n ts) = Some (cap_name n)); [|congruence].
      apply (all_loc_in lib true n ts ms _ _ CO); [unfold all_vars; apply in_or_app; right; now left|]. auto.
  - intros (t & IT & HT & JV & IC). assert (IV : In v (all_vars consts n ts)) by (unfold all_vars; apply in_or_app; left; apply table_in; eauto).
    split; [split; [auto|now apply INC]|]. destruct (get (f_local v) (all_loc consts n ts)) as [m|] eqn:GE; auto. exfalso.
    apply (all_loc_in lib consts n ts ms v m CO IV) in GE.
    assert (ND : NoDup (map low (table_vars ts ++ (if consts then [constituents_object n] else [])))) by apply CO. rewrite map_app in ND. apply nodup_app_iff in ND as (NT & _ & ND).
    destruct GE as [(t' & IT' & MT & _ & JV')|(-> & -> & _)].
    + assert (TT : t = t'). 2:{ subst t'. unfold mod_type in MT. rewrite MT in HT. discriminate HT. }
      clear -NT IT IT' JV JV'. unfold table_vars in NT. induction ts as [|x ts IH]; [destruct IT|]. cbn [map List.concat] in NT. rewrite map_app in NT. apply nodup_app_iff in NT as (_ & N2 & N3).
      assert (X : forall t, In t ts -> In v (t_vars t) -> In (low v) (map low (List.concat (map t_vars ts)))) by (intros t0 I J; apply in_map, in_concat; exists (t_vars t0); split; auto; now apply in_map).
      destruct IT as [->|IT], IT' as [->|IT']; auto; exfalso; [apply (N3 (low v)); [now apply in_map|apply (X t'); auto]|apply (N3 (low v)); [now apply in_map|apply (X t); auto]].
    + apply (ND (low (constituents_object n))); [apply in_map, table_in; eauto|now left].
Qed.
Print Assumptions C154_dummies.
Example C154_dummies_example : exists h, build 3 x_lib false None x_tables = Ok h /\ call_list h (L "run") = [v_beg; v_end; v_err] /\ call_list h (L "initialize") = [v_err].
Proof. eexists. split; [vm_compute; reflexivity|]. split; reflexivity. Qed.
(* every used variable of a table is accessible in the cap: a module variable by its import, another as dummy argument *)
Theorem C154_accessible_partial fuel lib consts name ts h f1 f2 reqs st ml n t v phase :
  build fuel lib consts name ts = Ok h -> requests f1 h ([], []) reqs = Ok st -> locations f2 h st = Ok ml -> named name ts = Some n ->
  (forall w, In w (table_vars ts) -> f_local w <> L "1") -> In t ts -> t_title t <> [] -> In v (t_vars t) -> used lib (all_vars consts n ts) reqs v ->
  (t_type t = L "module" /\ ~ In v (call_list h phase) /\ (In (t_title t, f_local v) ml \/ t_title t = n ++ L "_ccpp_cap")) \/
  (t_type t = L "host" /\ (forall m, ~ In (m, f_local v) ml) /\ (In v (call_list h phase) \/ (loop_std (f_std v) /\ phase <> L "run"))).
Proof.
  intros HB HR HL NM N1 IT TT IV UV. destruct (C153_imports _ _ _ _ _ _ _ _ _ _ _ HB HR HL N1) as (n' & NM' & _ & IM). assert (n' = n) by congruence. subst n'.
  assert (DU := C154_dummies _ _ _ _ _ _ phase v HB). destruct (build_sound _ _ _ _ _ _ HB) as (n' & ms & NM2 & ST & CO & MN & ML & TY & LO). assert (n' = n) by congruence. subst n'.
  assert (ONE : forall t', In t' ts -> In v (t_vars t') -> t' = t).
  { assert (ND : NoDup (map low (table_vars ts ++ (if consts then [constituents_object n] else [])))) by apply CO. rewrite map_app in ND. apply nodup_app_iff in ND as (NT & _ & _).
    intros t' IT' JV'. clear -NT IT IT' IV JV'. unfold table_vars in NT. induction ts as [|x ts IH]; [destruct IT|]. cbn [map List.concat] in NT. rewrite map_app in NT. apply nodup_app_iff in NT as (_ & N2 & N3).
    assert (X : forall t, In t ts -> In v (t_vars t) -> In (low v) (map low (List.concat (map t_vars ts)))) by (intros t0 I J; apply in_map, in_concat; exists (t_vars t0); split; auto; now apply in_map).
    destruct IT as [->|IT], IT' as [->|IT']; auto; exfalso; [apply (N3 (low v)); [now apply in_map|apply (X t'); auto]|apply (N3 (low v)); [now apply in_map|apply (X t); auto]]. }
  rewrite Forall_forall in TY. destruct (TY t IT) as [MT|HT]; [left|right].
  - split; auto. split.
    + intros I. apply DU in I as (t' & IT' & HT & JV & _). rewrite (ONE t' IT' JV) in HT. unfold mod_type in MT. rewrite MT in HT. discriminate HT.
    + destruct (str_eqb (t_title t) (n ++ L "_ccpp_cap")) eqn:E; [right; now apply str_eqb_eq|left]. apply str_eqb_neq in E. apply IM. exists t, v. auto 10.
  - split; auto. split.
    + intros m I. apply IM in I as (t' & w & IT' & MT & _ & JW & EW & _). assert (w = v).
      { eapply (low_inj lib _ ms); eauto; unfold all_vars; apply in_or_app; left; apply table_in; eauto. }
      subst w. rewrite (ONE t' IT' JW) in MT. unfold host_type in HT. rewrite HT in MT. discriminate MT.
    + destruct (is_loop (f_std v)) eqn:LV; [|left].
      * apply loop_iff in LV. destruct (str_eqb phase (L "run")) eqn:EP; [apply str_eqb_eq in EP; left|apply str_eqb_neq in EP; right; auto]. apply DU. exists t. auto.
      * apply DU. exists t. split; auto. split; auto. split; auto. intros X. apply loop_iff in X. congruence.
Qed.
Print Assumptions C154_accessible_partial.
Example C154_accessible_example : named None x_tables = Some (L "my_host") /\ t_title (nth 0 x_tables (mkT [] [] [] [])) <> [] /\ used x_lib (all_vars false (L "my_host") x_tables) [L "water_vapor"] v_ix.
Proof.
  split; [reflexivity|]. split; [discriminate|]. split; [cbn; auto|]. exists v_ix. split; [now left|].
  apply reached_idx with (L "water_vapor") v_state v_q; [constructor; now left|now left| |reflexivity|apply indices_spec; vm_compute; now left].
  right. split; auto. exists [v_t; v_q], []. split; [apply get_defines; reflexivity|]. apply comp_here. right. now left.
Qed.
(* but what is imported of a module variable given as an array reference is no Fortran name *)
Theorem C154_array_reference_refuted fuel lib consts name ts h f1 f2 reqs st ml n t v nm dims :
  build fuel lib consts name ts = Ok h -> requests f1 h ([], []) reqs = Ok st -> locations f2 h st = Ok ml -> named name ts = Some n ->
  (forall w, In w (table_vars ts) -> f_local w <> L "1") -> In t ts -> t_type t = L "module" -> t_title t <> [] -> t_title t <> n ++ L "_ccpp_cap" ->
  In v (t_vars t) -> used lib (all_vars consts n ts) reqs v -> array_ref (f_local v) nm dims ->
  In (t_title t, f_local v) ml /\ ~ fortran_name (f_local v).
Proof.
  intros HB HR HL NM N1 IT MT TT TC IV UV A. destruct (C153_imports _ _ _ _ _ _ _ _ _ _ _ HB HR HL N1) as (n' & NM' & _ & IM). assert (n' = n) by congruence. subst n'. split.
  - apply IM. exists t, v. auto 10.
  - intros F. apply fname_word in F as [_ F]. destruct A as (_ & _ & _ & w & ps & _ & _ & E).
    assert (I : In "("%char (f_local v)) by (rewrite E; apply in_or_app; right; apply in_or_app; right; now left). specialize (F _ I). discriminate F.
Qed.
Print Assumptions C154_array_reference_refuted.
Example C154_array_example : let ts := [mkT (L "module") (L "data_mod") (L "data_mod") [mkF (L "q(:,2)") (L "cloud_water") (L "real") false]] in
  exists h st ml, build 3 [] false (Some (L "hst")) ts = Ok h /\ requests 5 h ([], []) [L "cloud_water"] = Ok st /\ locations 5 h st = Ok ml /\ ml = [(L "data_mod", L "q(:,2)")].
Proof. eexists. eexists. eexists. split; [vm_compute; reflexivity|]. split; [vm_compute; reflexivity|]. split; [vm_compute; reflexivity|]. reflexivity. Qed.

(* ---- C155 ---- *)
(* exactly the consistent host descriptions are accepted *)
Theorem C155_accepted lib consts name ts :
  (exists fuel h, build fuel lib consts name ts = Ok h) <->
  (forall t, In t ts -> t_type t = L "module" \/ t_type t = L "host") /\ loops_distinct lib [] ts /\
  exists n ms, named name ts = Some n /\ consistent lib (all_vars consts n ts) ms.
Proof.
  split.
  - intros (fuel & h & HB). destruct (build_sound _ _ _ _ _ _ HB) as (n & ms & NM & ST & CO & MN & ML & TY & LO). rewrite Forall_forall in TY. split; auto. split; auto. eauto.
  - intros (TY & LO & n & ms & NM & CO). destruct (build_complete lib consts name ts n ms NM CO) as (N & C); auto; [apply Forall_forall; exact TY|].
    destruct (C N (le_n _)) as (h & HB). eauto.
Qed.
Print Assumptions C155_accepted.
Example C155_example : exists fuel h, build fuel x_lib false None x_tables = Ok h.
Proof. exists 3. eexists. vm_compute. reflexivity. Qed.
(* an accepted host model: no standard name is offered twice, by variables or components *)
Theorem C155_one_offer fuel lib consts name ts h n v c w d : build fuel lib consts name ts = Ok h -> named name ts = Some n ->
  In v (all_vars consts n ts) -> In w (all_vars consts n ts) -> part lib v c -> part lib w d -> f_std c = f_std d -> v = w /\ c = d.
Proof.
  intros HB NM IV IW P Q E. destruct (build_sound _ _ _ _ _ _ HB) as (n' & ms & NM' & ST & CO & _). assert (n' = n) by congruence. subst n'.
  assert (X : forall v c, In v (all_vars consts n ts) -> part lib v c -> exists o, lookup h (f_std c) = Some o /\ leaf o = c /\ own o = v).
  { intros v' c' I P'. destruct P' as [->|C]; [exists (OVar v')|exists (ODdt v' (OVar c'))]; (split; [apply (lookup_spec lib h _ ms _ _ ST CO)|auto]); [right; left; eauto|right; right; eauto 10]. }
  destruct (X v c IV P) as (o1 & L1 & A1 & B1). destruct (X w d IW Q) as (o2 & L2 & A2 & B2). rewrite E in L1. assert (o1 = o2) by congruence. subst o2. split; congruence.
Qed.
Print Assumptions C155_one_offer.
(* two structures of one type: their components collide *)
Theorem C155_same_type_rejected lib consts name ts a b v w fs c : In v (t_vars a) -> In w (t_vars b) -> In a ts -> In b ts -> v <> w ->
  f_ddt v = true -> f_ddt w = true -> f_type v = f_type w -> defines_type lib (f_type v) fs -> In c fs -> forall fuel h, build fuel lib consts name ts <> Ok h.
Proof.
  intros IV IW IA IB NE DV DW TW DT IC fuel h HB. assert (HB' := HB). destruct (build_sound _ _ _ _ _ _ HB) as (n & ms & NM & _).
  assert (IN : forall t x, In t ts -> In x (t_vars t) -> In x (all_vars consts n ts)) by (intros t x I J; unfold all_vars; apply in_or_app; left; apply table_in; eauto).
  destruct (C155_one_offer _ _ _ _ _ _ n v c w c HB' NM (IN a v IA IV) (IN b w IB IW)) as [X _]; auto.
  - right. split; auto. exists fs, []. split; auto. now apply comp_here.
  - right. split; auto. exists fs, []. split; [now rewrite <- TW|now apply comp_here].
Qed.
Print Assumptions C155_same_type_rejected.
Example C155_same_type_example : build 5 x_lib false None [mkT (L "host") (L "my_host") (L "my_host") [v_state; mkF (L "old_state") (L "old_physics_state") (L "physics_state") true]] = Raise "CCPPError".
Proof. vm_compute. reflexivity. Qed.

(* ---- C156 ---- *)
Lemma modules_loop fuel lib : forall ts h h' vs ms, each (add_table fuel lib) h ts = Ok h' -> st_is h vs ms -> consistent lib vs ms -> (forall t, In t ts -> t_type t <> L "host") -> m_loop h' = m_loop h.
Proof.
  induction ts as [|t ts IH]; intros h h' vs ms H ST CO N; cbn [each] in H; [apply Ok_eq in H; now subst|].
  apply b_inv in H as (h1 & H1 & H2). destruct (table_sound _ _ _ _ _ _ _ H1 ST CO) as (m2 & LL & ST2 & CO2 & E1 & E2 & E3 & E4 & E5).
  rewrite (IH _ _ _ _ H2 ST2 CO2) by (intros; apply N; now right). apply E4. destruct E3 as [X|X]; auto. elim (N t (or_introl eq_refl)). exact X.
Qed.
Lemma build_loop fuel lib consts name ts h : build fuel lib consts name ts = Ok h -> exists h1, each (add_table fuel lib) (mkHost name [] [] [] None) ts = Ok h1 /\ m_loop h = m_loop h1.
Proof.
  unfold build. intros H. apply b_inv in H as (h1 & H1 & H). exists h1. split; auto. destruct (m_name h1) as [n|]; [|discriminate]. destruct consts; [|apply Ok_eq in H; now subst].
  apply b_inv in H as (h2 & A & C). unfold add_variable in A. destruct (_ || _) in A; [discriminate|]. destruct (mem _ _) in A; [discriminate|]. apply Ok_eq in A. subst h2.
  unfold collect_fields in C. apply b_inv in C as (d & C & E). apply Ok_eq in E. subst h. reflexivity.
Qed.
(* the last host table decides *)
Lemma last_host fuel lib consts name a t b h : build fuel lib consts name (a ++ t :: b) = Ok h -> t_type t = L "host" -> (forall t', In t' b -> t_type t' <> L "host") ->
  exists h1 ms old, st_is h1 (table_vars (a ++ [t])) ms /\ consistent lib (table_vars (a ++ [t])) ms /\ m_loop h = looped old (loop_list (t_vars t) (m_ddt h1)) /\
    ((forall t', In t' a -> t_type t' <> L "host") -> old = None).
Proof.
  intros HB HT NB. apply build_loop in HB as (h3 & HB & ->). rewrite each_app in HB. apply b_inv in HB as (h1 & H1 & H2). cbn [each] in H2. apply b_inv in H2 as (h2 & H2 & H3).
  destruct (tables_sound _ _ _ _ _ _ _ H1 (st_nil name) (consistent_nil lib)) as (ms & LL & ST & CO & _). cbn [app] in *.
  destruct (table_sound _ _ _ _ _ _ _ H2 ST CO) as (m2 & LL2 & ST2 & CO2 & E1 & E2 & E3 & E4 & E5). apply E5 in HT as [E _].
  exists h2, (ms ++ m2), (m_loop h1). assert (TV : table_vars (a ++ [t]) = table_vars a ++ t_vars t) by (unfold table_vars; rewrite map_app, concat_app; cbn; now rewrite app_nil_r).
  rewrite TV. split; auto. split; auto. split; [rewrite (modules_loop _ _ _ _ _ _ _ H3 ST2 CO2 NB); exact E|].
  intros NA. rewrite (modules_loop _ _ _ _ _ _ _ H1 (st_nil name) (consistent_nil lib) NA). reflexivity.
Qed.
Lemma loop_list_in lib h vs ms l s o : st_is h vs ms -> consistent lib vs ms ->
  (In (s, o) (loop_list l (m_ddt h)) <-> loop_std s /\ ((exists v, In v l /\ f_std v = s /\ o = OVar v) \/ exists r c, In r vs /\ component_of lib r c /\ f_std c = s /\ o = ODdt r (OVar c))).
Proof.
  intros ST (F & _). unfold loop_list. rewrite in_app_iff, in_map_iff, filter_In, (proj2 ST), (comps_in lib vs ms F). cbn [fst]. rewrite loop_iff. split.
  - intros [(v & [= <- <-] & I)|((r & c & IR & C & E) & LS)].
    + apply filter_In in I as [I LV]. apply loop_iff in LV. split; auto. left. eauto.
    + unfold ent in E. injection E as -> ->. split; auto. right. eauto 10.
  - intros [LS [(v & I & <- & ->)|(r & c & IR & C & <- & ->)]].
    + left. exists v. split; auto. apply filter_In. split; auto. now apply loop_iff.
    + right. split; auto. exists r, c. auto.
Qed.
(* with one host table: its loop variables, and the components that are loop variables up to it *)
Theorem C156_one_table_partial fuel lib consts name a t b h : build fuel lib consts name (a ++ t :: b) = Ok h -> t_type t = L "host" ->
  (forall t', In t' (a ++ b) -> t_type t' <> L "host") ->
  forall s o, (exists d, m_loop h = Some d /\ In (s, o) d) <->
    loop_std s /\ ((exists v, In v (t_vars t) /\ f_std v = s /\ o = OVar v) \/
                   exists r c, In r (table_vars (a ++ [t])) /\ component_of lib r c /\ f_std c = s /\ o = ODdt r (OVar c)).
Proof.
  intros HB HT NO s o. destruct (last_host _ _ _ _ _ _ _ _ HB HT) as (h1 & ms & old & ST & CO & E & EO); [intros; apply NO; apply in_or_app; now right|].
  rewrite EO in E by (intros; apply NO; apply in_or_app; now left). rewrite <- (loop_list_in lib h1 _ ms _ s o ST CO), E. unfold looped. destruct (loop_list (t_vars t) (m_ddt h1)) as [|x l].
  - split; [intros (d & X & _); discriminate X|intros []].
  - split; [intros (d & [= <-] & I); auto|eauto].
Qed.
Print Assumptions C156_one_table_partial.
Example C156_example : exists h d, build 3 x_lib false None x_tables = Ok h /\ m_loop h = Some d /\ map fst d = [L "horizontal_loop_begin"; L "horizontal_loop_end"].
Proof. eexists. eexists. split; [vm_compute; reflexivity|]. split; reflexivity. Qed.
(* with several, those of all tables but the last with any are lost *)
Theorem C156_lost_refuted fuel lib consts name a t b t2 c h v w : build fuel lib consts name (a ++ t :: b ++ t2 :: c) = Ok h ->
  t_type t = L "host" -> In v (t_vars t) -> loop_std (f_std v) -> t_type t2 = L "host" -> In w (t_vars t2) -> loop_std (f_std w) -> (forall t', In t' c -> t_type t' <> L "host") ->
  exists d, m_loop h = Some d /\ ~ In (f_std v) (map fst d) /\ In (f_std w) (map fst d).
Proof.
  intros HB HT IV LV HT2 IW LW NC. assert (HB2 := HB). rewrite app_comm_cons, app_assoc in HB.
  destruct (last_host _ _ _ _ _ _ _ _ HB HT2 NC) as (h1 & ms & old & ST & CO & E & _).
  assert (IWL : In (f_std w, OVar w) (loop_list (t_vars t2) (m_ddt h1))) by (apply (loop_list_in lib h1 _ ms _ _ _ ST CO); split; auto; left; eauto).
  exists (loop_list (t_vars t2) (m_ddt h1)). split; [rewrite E; unfold looped; destruct (loop_list (t_vars t2) (m_ddt h1)); [destruct IWL|reflexivity]|].
  split; [|apply (in_map fst) in IWL; exact IWL]. intros I. apply in_map_iff in I as ([s o] & ES & I). cbn [fst] in ES. subst s.
  apply (loop_list_in lib h1 _ ms _ _ _ ST CO) in I as [_ I].
  destruct (build_sound _ _ _ _ _ _ HB2) as (n & ms2 & NM & ST2 & CO2 & _). destruct CO2 as (F & N1 & _ & NL & _). apply nodup_app_iff in N1 as (N1 & _ & N3).
  unfold all_vars, table_vars in N1, N3. rewrite !map_app, !concat_app in N1. cbn [map List.concat] in N1. rewrite !map_app, !concat_app in N1. cbn [map List.concat] in N1. rewrite !map_app in N1.
  destruct I as [(x & IX & EX & _)|(r & d & IR & C & EX & _)].
  - apply nodup_app_iff in N1 as (N1 & _). apply nodup_app_iff in N1 as (_ & N1 & _). apply nodup_app_iff in N1 as (_ & _ & N1). apply (N1 (f_std v)); [now apply in_map|].
    apply in_or_app. right. apply in_or_app. left. rewrite <- EX. now apply in_map.
  - apply (N3 (f_std v)).
    + apply in_map. apply in_or_app. left. apply in_concat. exists (t_vars t). split; auto. apply in_map. apply in_or_app. right. now left.
    + rewrite <- EX. apply in_map. apply (concat_in lib _ _ F). exists r. split; auto. apply in_or_app. left. apply table_in in IR as (t' & IT & JR). apply table_in. exists t'. split; auto.
      rewrite app_comm_cons, app_assoc. apply in_app_or in IT as [IT|[<-|[]]]; apply in_or_app; [now left|right; now left].
Qed.
Print Assumptions C156_lost_refuted.
Example C156_lost_example : exists h d, build 3 [] false None [mkT (L "host") (L "h1") (L "h1") [v_beg]; mkT (L "host") (L "h2") (L "h2") [v_end]] = Ok h /\ m_loop h = Some d /\ map fst d = [L "horizontal_loop_end"].
Proof. eexists. eexists. split; [vm_compute; reflexivity|]. split; reflexivity. Qed.
