(* HmFind.v: the use meter of the host model. *)
From Verif Require Import PyStr Regex DictModel DictProofs ReqModel ReqProofs CheckModel CheckSpec CheckProofs DdtModel DdtSpec DdtProps HmModel HmSpec HmProofs.
Open Scope nat_scope.
Open Scope list_scope.

Lemma tokens_nl t nm dims : array_ref t nm dims -> ref_tokens (t ++ [nl]) = ref_tokens t.
Proof.
  intros (N & FS & LD & w & ps & W & F2 & E). destruct (fname_word _ N) as [N1 N2]. unfold ref_tokens.
  assert (X : strip (t ++ [nl]) = strip t); [|now rewrite X].
  destruct nm as [|c nm]; [congruence|]. destruct (word_facts c (N2 c (or_introl eq_refl))) as [SP _]. cbn [app] in E. subst t. unfold strip, lstrip.
  cbn [app dropwhile]. rewrite SP. unfold rstrip. change (c :: (nm ++ w ++ L "(" ++ join (L ",") ps ++ L ")") ++ [nl]) with ((c :: nm ++ w ++ L "(" ++ join (L ",") ps ++ L ")") ++ [nl]).
  rewrite rev_app_distr. reflexivity.
Qed.
Lemma no_colon i : subscript i -> (negb (existsb (Ascii.eqb ":"%char) i) = true <-> i <> L ":").
Proof.
  intros SU. rewrite negb_true_iff. split.
  - intros H ->. discriminate H.
  - intros NE. destruct (existsb (Ascii.eqb ":"%char) i) eqn:E; auto. exfalso. apply existsb_exists in E as (c & I & EC). apply Ascii.eqb_eq in EC. subst c.
    destruct SU as [F|[->|[_ D]]]; [|congruence|].
    + apply fname_word in F as [_ F]. specialize (F _ I). discriminate F.
    + specialize (D _ I). discriminate D.
Qed.
Lemma indices_spec l i : In i (indices l) <-> index_in l i.
Proof.
  unfold indices, index_in. destruct (re_dollar scalar_ref_re l) eqn:E.
  - apply re_dollar_spec in E.
    assert (X : exists t nm dims, (l = t \/ l = t ++ [nl]) /\ array_ref t nm dims).
    { destruct E as [E|(t & -> & E)]; apply scalar_ref_spec in E as (nm & dims & A); [exists l|exists t]; eauto. }
    destruct X as (t & nm & dims & EL & A).
    assert (T : ref_tokens l = nm :: dims) by (destruct EL as [->| ->]; [|rewrite (tokens_nl _ _ _ A)]; now apply ref_tokens_spec).
    rewrite T. cbn [List.tl]. rewrite filter_In. split.
    + intros [I NC]. exists t, nm, dims. split; auto. split; auto. split; auto. apply no_colon; auto. destruct A as (_ & FS & _). rewrite Forall_forall in FS. auto.
    + intros (t' & nm' & dims' & EL' & A' & I & NC).
      assert (T' : ref_tokens l = nm' :: dims') by (destruct EL' as [->| ->]; [|rewrite (tokens_nl _ _ _ A')]; now apply ref_tokens_spec).
      rewrite T in T'. injection T' as -> ->. split; auto. apply no_colon; auto. destruct A' as (_ & FS & _). rewrite Forall_forall in FS. auto.
  - split; [intros []|]. intros (t & nm & dims & EL & A & _). assert (re_dollar scalar_ref_re l = true); [|congruence].
    apply re_dollar_spec. destruct EL as [->| ->]; [left; apply scalar_ref_spec; eauto|right]. exists t. split; auto. apply scalar_ref_spec. eauto.
Qed.
Lemma keys_nodup lib h vs ms : st_is h vs ms -> consistent lib vs ms ->
  NoDup (map fst (m_vars h)) /\ NoDup (map fst (m_ddt h)) /\ forall s, In s (map fst (m_vars h)) -> ~ In s (map fst (m_ddt h)).
Proof.
  intros [-> ->] (F & N1 & _). rewrite keys_keyed, keys_comps by (eapply F2_len; eauto). apply nodup_app_iff in N1 as (A & B & C). auto.
Qed.
Lemma lookup_spec lib h vs ms s o : st_is h vs ms -> consistent lib vs ms ->
  (lookup h s = Some o <-> (s = L "ccpp_constant_one" /\ o = OVar const_field) \/
     (exists v, In v vs /\ f_std v = s /\ o = OVar v) \/ exists v c, In v vs /\ component_of lib v c /\ f_std c = s /\ o = ODdt v (OVar c)).
Proof.
  intros ST CO. destruct (keys_nodup _ _ _ _ ST CO) as (N1 & N2 & N3). destruct ST as [E1 E2]. destruct CO as (F & _ & NC & _).
  assert (CI := comps_in lib vs ms F). assert (CC := concat_in lib vs ms F). unfold lookup. destruct (str_eqb s const_one) eqn:EC.
  - apply str_eqb_eq in EC. subst s. split.
    + intros [= <-]. now left.
    + intros [[_ ->]|[(v & I & E & _)|(v & c & I & C & E & _)]]; auto; exfalso.
      * apply (NC v); [apply in_or_app; now left|exact E].
      * apply (NC c); [apply in_or_app; right; apply CC; eauto|exact E].
  - apply str_eqb_neq in EC. unfold const_one in EC. destruct (get s (m_vars h)) as [f|] eqn:G.
    + apply get_in in G. assert (GI := G). rewrite E1 in G. apply in_map_iff in G as (v & EV & I). unfold keyed in EV. injection EV as EV1 ->. split.
      * intros [= <-]. right. left. eauto.
      * intros [[X _]|[(w & IW & EW & ->)|(w & c & IW & C & EW & ->)]]; [congruence| |].
        -- f_equal. f_equal. assert (IW' : In (s, w) (m_vars h)) by (rewrite E1; rewrite <- EW; apply (in_map keyed); auto).
           apply (in_get _ _ _ N1) in IW', GI. congruence.
        -- exfalso. apply (N3 s); [apply (in_map fst) in GI; exact GI|]. rewrite E2. apply in_map_iff. exists (ent w c). split; auto. apply CI. eauto.
    + split.
      * intros G2. right. right. apply get_in in G2. rewrite E2 in G2. apply CI in G2 as (v & c & I & C & E). unfold ent in E. injection E as -> ->. eauto 10.
      * intros [[X _]|[(w & IW & EW & ->)|(w & c & IW & C & EW & ->)]]; [congruence| |].
        -- exfalso. assert (IW' : In (s, w) (m_vars h)) by (rewrite E1; rewrite <- EW; apply (in_map keyed); auto). apply (in_get _ _ _ N1) in IW'. congruence.
        -- apply in_get; auto. rewrite E2. apply CI. exists w, c. unfold ent. rewrite EW. auto.
Qed.
(* ---- searching ---- *)
Inductive reach (h : host) : str -> str -> Prop :=
| reach_refl s : reach h s s
| reach_step s o i s' : lookup h s = Some o -> In i (indices (f_local (leaf o))) -> reach h i s' -> reach h s s'.
Definition grows (h : host) (from : str -> Prop) (st st' : meter) : Prop :=
  (forall x, In x (fst st') <-> In x (fst st) \/ exists s s' o, from s /\ reach h s s' /\ lookup h s' = Some o /\ x = root_local o) /\
  (forall x, In x (snd st') -> In x (snd st) \/ lookup h x = None).
Lemma grows_each h (f : meter -> str -> res meter) : (forall st s st', f st s = Ok st' -> grows h (eq s) st st') ->
  forall l st st', each f st l = Ok st' -> grows h (fun s => In s l) st st'.
Proof.
  intros HF. induction l as [|a l IH]; intros st st' H; cbn [each] in H.
  - apply Ok_eq in H. subst st'. split; [|auto]. intros x. split; auto. intros [I|(s & s' & o & [] & _)]; auto.
  - apply b_inv in H as (st1 & H1 & H2). apply HF in H1 as [A1 A2]. apply IH in H2 as [B1 B2]. split.
    + intros x. rewrite B1, A1. split.
      * intros [[I|(s & s' & o & <- & R)]|(s & s' & o & I & R)]; [auto| |]; right; [exists a|exists s]; exists s', o; cbn; tauto.
      * intros [I|(s & s' & o & [<-|I] & R)]; [auto| |].
        -- left. right. exists a, s', o. auto.
        -- right. exists s, s', o. auto.
    + intros x I. apply B2 in I as [I|I]; auto.
Qed.
Lemma find_spec h : forall fuel st s r, find fuel h st s = Ok r -> fst r = lookup h s /\ grows h (eq s) st (snd r).
Proof.
  induction fuel as [|fuel IH]; intros st s r H; [discriminate|]. cbn [find] in H. destruct (lookup h s) as [o|] eqn:LO.
  - apply b_inv in H as (st1 & H & E). apply Ok_eq in E. subst r. cbn [fst snd]. split; auto.
    assert (G : grows h (fun i => In i (indices (f_local (leaf o)))) st st1).
    { eapply grows_each; [|exact H]. intros a i b Hi. cbn beta in Hi. apply b_inv in Hi as (r & Hi & E). apply Ok_eq in E. subst b. now apply IH in Hi as [_ Hi]. }
    destruct G as [G1 G2]. split; cbn [fst snd]; [|exact G2]. intros x. cbn [In]. rewrite G1. split.
    + intros [<-|[I|(i & s' & o' & I & R & LO' & ->)]]; [|auto|].
      * right. exists s, s, o. split; auto. split; [constructor|auto].
      * right. exists s, s', o'. split; auto. split; auto. eapply reach_step; eauto.
    + intros [I|(s1 & s' & o' & <- & R & LO' & ->)]; auto. inversion R as [|? o1 i ? LO1 I R1]; subst.
      * left. congruence.
      * right. right. exists i, s', o'. split; auto. congruence.
  - apply Ok_eq in H. subst r. cbn [fst snd]. split; auto. split; cbn [fst snd].
    + intros x. split; auto. intros [I|(s1 & s' & o' & <- & R & LO' & ->)]; auto. inversion R; subst; congruence.
    + intros x [<-|I]; auto.
Qed.
Lemma requests_spec h fuel st ss st' : requests fuel h st ss = Ok st' -> grows h (fun s => In s ss) st st'.
Proof.
  apply grows_each. intros a s b H. cbn beta in H. apply b_inv in H as (r & H & E). apply Ok_eq in E. subst b. now apply find_spec in H.
Qed.
Lemma retry_spec h fuel : forall l st st', each (retry fuel h) st l = Ok st' -> (forall x, In x l -> lookup h x = None) -> forall x, In x (fst st') <-> In x (fst st).
Proof.
  induction l as [|a l IH]; intros st st' H N x; cbn [each] in H.
  - apply Ok_eq in H. now subst.
  - apply b_inv in H as (st1 & H1 & H2). rewrite (IH _ _ H2) by (intros; apply N; now right). unfold retry in H1. apply b_inv in H1 as (r & H1 & H3).
    apply find_spec in H1 as [E [G1 _]]. rewrite (N a (or_introl eq_refl)) in E. rewrite E in H3. apply Ok_eq in H3. subst st1. rewrite G1. split; auto.
    intros [I|(s & s' & o & <- & R & LO & _)]; auto. exfalso. assert (NA := N a (or_introl eq_refl)). inversion R; subst; congruence.
Qed.
Lemma find_deterministic_use h f1 f2 st ss st1 : requests f1 h ([], []) ss = Ok st -> each (retry f2 h) st (snd st) = Ok st1 ->
  forall x, In x (fst st1) <-> exists s s' o, In s ss /\ reach h s s' /\ lookup h s' = Some o /\ x = root_local o.
Proof.
  intros H1 H2 x. apply requests_spec in H1 as [G1 G2]. rewrite (retry_spec _ _ _ _ _ H2).
  - rewrite G1. cbn. tauto.
  - intros y I. apply G2 in I as [[]|I]; auto.
Qed.
(* ---- searches in terms of the tables ---- *)
Lemma reach_reached lib h vs ms reqs : st_is h vs ms -> consistent lib vs ms -> forall s s', reach h s s' -> reached lib vs reqs s -> reached lib vs reqs s'.
Proof.
  intros ST CO. induction 1 as [|s o i s' LO I R IH]; auto. intros RS. apply IH. apply indices_spec in I.
  apply (lookup_spec lib h vs ms s o ST CO) in LO as [[-> ->]|[(v & IV & E & ->)|(v & c & IV & C & E & ->)]]; cbn [leaf] in I.
  - exfalso. destruct I as (t & nm & dims & EL & A & _). cbn in EL. destruct A as (N & _ & _ & w & ps & _ & _ & ->). destruct N as (c & t' & -> & AL & _). destruct EL as [EL|EL]; cbn [app] in EL; injection EL as EL _; subst c; discriminate AL.
  - eapply reached_idx; [exact RS|exact IV|left; reflexivity|exact E|exact I].
  - eapply reached_idx; [exact RS|exact IV|right; exact C|exact E|exact I].
Qed.
Lemma reach_snoc h s s' o i : reach h s s' -> lookup h s' = Some o -> In i (indices (f_local (leaf o))) -> reach h s i.
Proof. induction 1 as [|s o1 j s' LO I R IH]; intros LO' J; [eapply reach_step; eauto; constructor|eapply reach_step; eauto]. Qed.
Lemma reached_reach lib h vs ms reqs : st_is h vs ms -> consistent lib vs ms -> forall s', reached lib vs reqs s' -> exists s, In s reqs /\ reach h s s'.
Proof.
  intros ST CO. induction 1 as [s I|s v c i RS (s0 & I0 & R0) IV P E II]; [exists s; split; auto; constructor|]. exists s0. split; auto.
  apply indices_spec in II. destruct P as [->|C].
  - eapply reach_snoc; [exact R0| |]; [apply (lookup_spec lib h vs ms s _ ST CO); right; left; eauto|exact II].
  - eapply reach_snoc; [exact R0| |]; [apply (lookup_spec lib h vs ms s _ ST CO); right; right; eauto 10|exact II].
Qed.
Lemma used_iff lib h vs ms f1 f2 st ss st1 : st_is h vs ms -> consistent lib vs ms ->
  requests f1 h ([], []) ss = Ok st -> each (retry f2 h) st (snd st) = Ok st1 ->
  forall x, x <> L "1" -> (In x (fst st1) <-> exists v, used lib vs ss v /\ f_local v = x).
Proof.
  intros ST CO H1 H2 x N1. rewrite (find_deterministic_use h f1 f2 st ss st1 H1 H2). unfold used. split.
  - intros (s & s' & o & I & R & LO & ->). assert (RS : reached lib vs ss s') by (eapply reach_reached; eauto; now constructor).
    apply (lookup_spec lib h vs ms s' o ST CO) in LO as [[-> ->]|[(v & IV & E & ->)|(v & c & IV & C & E & ->)]]; unfold root_local in *; cbn [own] in *.
    + now elim N1.
    + exists v. split; auto. split; auto. exists v. split; [now left|]. now rewrite E.
    + exists v. split; auto. split; auto. exists c. split; [now right|]. now rewrite E.
  - intros (v & (IV & c & P & RS) & <-). destruct (reached_reach lib h vs ms ss ST CO _ RS) as (s & I & R). exists s, (f_std c). destruct P as [->|C].
    + exists (OVar v). split; auto. split; auto. split; auto. apply (lookup_spec lib h vs ms _ _ ST CO). right. left. eauto.
    + exists (ODdt v (OVar c)). split; auto. split; auto. split; auto. apply (lookup_spec lib h vs ms _ _ ST CO). right. right. eauto 10.
Qed.
(* ---- locations ---- *)
Lemma loc_in ts l m : In (l, m) (flat_map loc_of ts) <-> exists t v, In t ts /\ mod_type t /\ t_title t = m /\ In v (t_vars t) /\ f_local v = l.
Proof.
  rewrite in_flat_map. unfold loc_of, mod_type, moved. split.
  - intros (t & I & J). destruct (str_eqb (t_type t) (L "module")) eqn:E; [|destruct J]. apply str_eqb_eq in E. apply in_map_iff in J as (v & [= <- <-] & J). eauto 10.
  - intros (t & v & I & E & <- & IV & <-). exists t. split; auto. assert (str_eqb (t_type t) (L "module") = true) as -> by now apply str_eqb_eq. apply in_map_iff. eauto.
Qed.
Lemma low_inj lib vs ms v w : consistent lib vs ms -> In v vs -> In w vs -> f_local v = f_local w -> v = w.
Proof.
  intros (_ & _ & _ & N & _) I J E. assert (E' : lower (f_local v) = lower (f_local w)) by now rewrite E. clear E.
  induction vs as [|x vs IH]; [destruct I|]. cbn [map] in N. apply NoDup_cons_iff in N as [N1 N2]. destruct I as [->|I], J as [->|J]; auto.
  - exfalso. apply N1. rewrite E'. apply (in_map (fun v => lower (f_local v))). exact J.
  - exfalso. apply N1. rewrite <- E'. apply (in_map (fun v => lower (f_local v))). exact I.
Qed.
