(* MetaFile.v: the reader of metadata files accepts exactly what MetaSpec describes
   (lemmas for C73). *)
From Verif Require Import PyStr Regex PhaseModel PhaseSpec PhaseProofs PhaseProps CheckModel CheckSpec CheckProofs CheckProps ReqModel ReqProofs MetaModel MetaSpec MetaProofs.
From Coq Require Import Lia.
Open Scope nat_scope.
Open Scope list_scope.

Lemma put_assign k v d : put k v d = assign d k v.
Proof.
  induction d as [|[k' v'] d IH]; cbn; auto. destruct (str_eq_dec k k') as [->|N].
  - now rewrite str_eqb_refl.
  - apply str_eqb_neq in N. now rewrite N, IH.
Qed.
Lemma intrinsic_text v : exists o, check_fortran_intrinsic v false = Ok o /\ (is_some o = true <-> MetaSpec.type_text v).
Proof.
  change (MetaSpec.type_text v) with (CheckProps.type_text v). pose proof (intrinsic_test v) as T. unfold check_fortran_intrinsic. cbv zeta.
  destruct (existsb (str_eqb (lower (strip v))) intrinsic_types || (str_eqb (firstn 6 (lower (strip v))) (L "double") && re_prefix dp_re (lower (strip v)))).
  - exists (Some v). split; [reflexivity|exact T].
  - exists None. split; [reflexivity|]. split; [discriminate|]. intros H. apply T in H. discriminate.
Qed.
Lemma as_range_spec d r : as_range d r <-> r = to_range d.
Proof.
  unfold as_range, to_range. destruct (existsb (Ascii.eqb ":") d) eqn:E.
  - apply existsb_exists in E as (c & I & C). apply Ascii.eqb_eq in C. subst c. split; [intros [[_ H]|[N _]]; [auto|contradiction]|auto].
  - assert (N : ~ In ":"%char d). { intros I. assert (existsb (Ascii.eqb ":") d = true); [|congruence]. apply existsb_exists. exists ":"%char. split; auto. }
    split; [intros [[I _]|[_ H]]; [contradiction|auto]|auto].
Qed.
Lemma as_range_map ds rs : Forall2 as_range ds rs <-> rs = map to_range ds.
Proof.
  split.
  - induction 1 as [|d r ds rs A _ IH]; cbn; auto. apply as_range_spec in A. now subst.
  - intros ->. induction ds; constructor; auto. now apply as_range_spec.
Qed.
Lemma var_item_spec C skip ddts K b d kv b' d' : (forall v, mem v ddts = true <-> K v) ->
  var_item C skip ddts (b, d) kv = Ok (b', d') <-> b' = true /\ exists p, property C skip K (norm kv) p /\ d' = assign d (fst p) (snd p).
Proof.
  intros HK. unfold var_item, property, norm. destruct (intrinsic_text (strip (snd kv))) as (o & -> & I). cbn [bind].
  set (k := lower (strip (fst kv))). set (v := strip (snd kv)) in *.
  destruct (str_eqb k (L "type") && negb (is_some o)) eqn:Q.
  - apply andb_true_iff in Q as [Q1 Q2]. apply str_eqb_eq in Q1. apply negb_true_iff in Q2.
    assert (NT : ~ MetaSpec.type_text v) by (rewrite <- I; congruence).
    destruct (skip || mem v ddts) eqn:S.
    + rewrite put_assign. apply orb_true_iff in S. rewrite HK in S. split.
      * intros [= <- <-]. split; auto. exists (L "ddt_type", PText v). split; auto.
      * intros (-> & p & [(_ & _ & _ & ->)|(N & _)] & ->); [reflexivity|]. exfalso. apply N. auto.
    + apply orb_false_iff in S as [S1 S2]. split; [discriminate|]. intros (_ & p & [(_ & _ & [S|S] & _)|(N & _)] & _); [congruence|apply HK in S; congruence|]. exfalso. apply N. auto.
  - assert (NQ : ~ (k = L "type" /\ ~ MetaSpec.type_text v)).
    { intros [E N]. rewrite <- I in N. rewrite E in Q. cbn in Q. destruct (is_some o); [congruence|discriminate]. }
    destruct (c_prop C k) as [valid|].
    + destruct (valid v) as [x|] eqn:V.
      * rewrite put_assign. split.
        -- intros [= <- <-]. split; auto. exists (k, ranges k x). split; auto. right. split; auto. exists valid, x. split; auto. split; auto.
           unfold ranges. destruct (str_eqb k (L "dimensions")) eqn:D.
           ++ apply str_eqb_eq in D. destruct x as [t|ds]; [right; right; eauto|right; left]. split; auto. exists ds, (map to_range ds). split; auto. split; auto. now apply as_range_map.
           ++ apply str_eqb_neq in D. auto.
        -- intros (-> & p & [(E & N & _)|(_ & valid' & x' & [= <-] & V' & P)] & ->); [exfalso; auto|]. rewrite V in V'. injection V' as <-.
           f_equal. f_equal. unfold ranges. destruct P as [(N & ->)|[(E & ds & rs & -> & R & ->)|(E & t & -> & ->)]]; cbn [fst snd].
           ++ apply str_eqb_neq in N. now rewrite N.
           ++ rewrite E, str_eqb_refl. apply as_range_map in R. now subst.
           ++ rewrite E, str_eqb_refl. reflexivity.
      * split; [discriminate|]. intros (_ & p & [(E & N & _)|(_ & valid' & x' & [= <-] & V' & P)] & _); [exfalso; auto|congruence].
    + split; [destruct b; discriminate|]. intros (_ & p & [(E & N & _)|(_ & valid' & x' & H & _)] & _); [exfalso; auto|congruence].
Qed.
Definition assign_all (ps : list (str * pval)) (d : props) : props := fold_left (fun d p => assign d (fst p) (snd p)) ps d.
Lemma var_items_spec C skip ddts K items : (forall v, mem v ddts = true <-> K v) -> forall b d b' d',
  var_items C skip ddts (b, d) items = Ok (b', d') <->
  b' = (b || nonempty items) /\ exists ps, Forall2 (property C skip K) (map norm items) ps /\ d' = assign_all ps d.
Proof.
  intros HK. induction items as [|kv items IH]; intros b d b' d'; cbn [var_items map nonempty].
  - rewrite orb_false_r. split; [intros [= <- <-]; split; auto; exists []; split; auto; constructor|]. intros (-> & ps & F & ->). inversion F. reflexivity.
  - rewrite orb_true_r, bind_ok. split.
    + intros ([b1 d1] & H1 & H2). apply (var_item_spec _ _ _ _ _ _ _ _ _ HK) in H1 as (-> & p & P & ->). apply IH in H2 as (-> & ps & F & ->). split; auto.
      exists (p :: ps). split; [now constructor|reflexivity].
    + intros (-> & ps & F & ->). inversion F as [|? p ? ps' P F']; subst. exists (true, assign d (fst p) (snd p)). split.
      * apply (var_item_spec _ _ _ _ _ _ _ _ _ HK). split; auto. exists p. auto.
      * apply IH. split; auto. exists ps'. auto.
Qed.
Definition inner (l : str) : Prop := ~ section_line l /\ ~ table_line l /\ ~ variable_line l.
Definition at_stop (ls : list str) : Prop := match ls with [] => True | l :: _ => section_line l \/ table_line l \/ variable_line l end.
Lemma ht_start l : header_start l || table_start l = true <-> section_line l \/ table_line l.
Proof. now rewrite orb_true_iff, header_start_spec, table_start_spec. Qed.
Lemma ht_start_false l : header_start l || table_start l = false <-> ~ section_line l /\ ~ table_line l.
Proof. now rewrite orb_false_iff, header_start_false, table_start_false. Qed.
Lemma var_lines_spec C skip ddts K ls : (forall v, mem v ddts = true <-> K v) -> forall b d d' rest,
  var_lines C skip ddts (b, d) ls = Ok (d', rest) <->
  exists body kvs ps, ls = body ++ rest /\ (forall l, In l body -> inner l) /\ at_stop rest /\ settings body kvs /\
    Forall2 (property C skip K) kvs ps /\ d' = assign_all ps d.
Proof.
  intros HK. induction ls as [|l ls IH]; intros b d d' rest; cbn [var_lines].
  - split.
    + intros [= <- <-]. exists [], [], []. split; auto. split; [intros ? []|]. split; [exact I|]. split; [now apply settings_nil|]. split; [constructor|reflexivity].
    + intros (body & kvs & ps & E & _ & _ & S & F & ->). symmetry in E. apply app_eq_nil in E as [-> ->]. apply settings_nil in S. subst. inversion F. reflexivity.
  - assert (STOP : section_line l \/ table_line l \/ variable_line l -> (Ok (d, l :: ls) = Ok (d', rest) <->
       exists body kvs ps, l :: ls = body ++ rest /\ (forall l, In l body -> inner l) /\ at_stop rest /\ settings body kvs /\ Forall2 (property C skip K) kvs ps /\ d' = assign_all ps d)).
    { intros ST. split.
      - intros [= <- <-]. exists [], [], []. split; auto. split; [intros ? []|]. split; [exact ST|]. split; [now apply settings_nil|]. split; [constructor|reflexivity].
      - intros (body & kvs & ps & E & B & _ & S & F & ->). destruct body as [|x body].
        + cbn in E. subst rest. apply settings_nil in S. subst. inversion F. reflexivity.
        + injection E as <- E. destruct (B l (or_introl eq_refl)) as (N1 & N2 & N3). tauto. }
    destruct (header_start l || table_start l) eqn:H.
    + apply ht_start in H. cbn [snd]. apply STOP. tauto.
    + apply ht_start_false in H as [H1 H2]. destruct (variable_start_cases l) as [[V NV]|(n & V & VL & _)]; rewrite V; cbn [bind].
      * rewrite bind_ok. split.
        -- intros (items & P & X). apply bind_ok in X as ([b1 d1] & X1 & X2). apply (var_items_spec _ _ _ _ _ HK) in X1 as (-> & ps1 & F1 & ->).
           apply IH in X2 as (body & kvs & ps & -> & B & S & St & F & ->). exists (l :: body), (map norm items ++ kvs), (ps1 ++ ps). split; auto.
           split; [intros x [<-|I]; [unfold inner; auto|auto]|]. split; auto. split; [apply settings_cons; eauto|]. split; [now apply Forall2_app|]. unfold assign_all. now rewrite fold_left_app.
        -- intros (body & kvs & ps & E & B & S & St & F & ->). destruct body as [|x body].
           ++ cbn in E. subst rest. cbn in S. tauto.
           ++ injection E as <- E. apply settings_cons in St as (items & kvs' & P & St & ->). exists items. split; auto.
              apply Forall2_app_inv_l in F as (ps1 & ps2 & F1 & F2 & ->). apply bind_ok. exists (b || nonempty items, assign_all ps1 d). split.
              ** apply (var_items_spec _ _ _ _ _ HK). split; auto. eauto.
              ** apply IH. exists body, kvs', ps2. split; auto. split; [intros y Y; apply B; now right|]. split; auto. split; auto. split; auto. unfold assign_all. now rewrite fold_left_app.
      * cbn [snd]. apply STOP. tauto.
Qed.

(* ---- one variable ---- *)
Lemma assign_keys d k v : NoDup (map fst d) -> NoDup (map fst (assign d k v)) /\ forall x, In x (map fst (assign d k v)) <-> In x (map fst d) \/ x = k.
Proof.
  induction d as [|[k' v'] d IH]; cbn [assign]; intros N.
  - split; [repeat constructor; intros []|]. cbn. intuition.
  - cbn in N. inversion N as [|? ? N1 N2]; subst. destruct (str_eq_dec k k') as [->|NE].
    + cbn. split; [constructor; auto|]. intros x. intuition.
    + destruct (IH N2) as [A B]. cbn. split.
      * constructor; auto. rewrite B. intros [X|X]; [contradiction|congruence].
      * intros x. rewrite B. intuition.
Qed.
Lemma assign_all_nodup ps d : NoDup (map fst d) -> NoDup (map fst (assign_all ps d)).
Proof. revert d. induction ps as [|p ps IH]; intros d N; cbn; auto. apply IH. now apply assign_keys. Qed.
Lemma look_in d k v : NoDup (map fst d) -> look k d = Some v <-> In (k, v) d.
Proof.
  induction d as [|[k' v'] d IH]; cbn [look]; intros N; [split; [discriminate|intros []]|].
  cbn in N. inversion N as [|? ? N1 N2]; subst. destruct (str_eqb k k') eqn:Q.
  - apply str_eqb_eq in Q. subst k'. split; [intros [= ->]; now left|]. intros [[= ->]|I]; auto. exfalso. apply N1. apply in_map_iff. exists (k, v). auto.
  - apply str_eqb_neq in Q. rewrite IH by auto. split; [now right|]. intros [[= -> ->]|I]; [congruence|auto].
Qed.
Lemma assign_head k a t x v : exists a' t', assign ((k, a) :: t) x v = (k, a') :: t' /\ forall b, exists b', assign ((k, b) :: t) x v = (k, b') :: t'.
Proof.
  cbn [assign]. destruct (str_eq_dec x k) as [->|N].
  - exists v, t. split; auto. intros b. exists v. reflexivity.
  - exists a, (assign t x v). split; auto. intros b. exists b. reflexivity.
Qed.
Lemma assign_all_head ps : forall k a t, exists a' t', assign_all ps ((k, a) :: t) = (k, a') :: t' /\ forall b, exists b', assign_all ps ((k, b) :: t) = (k, b') :: t'.
Proof.
  induction ps as [|p ps IH]; intros k a t.
  - exists a, t. split; auto. intros b. exists b. reflexivity.
  - unfold assign_all. cbn [fold_left]. destruct (assign_head k a t (fst p) (snd p)) as (a1 & t1 & E & H). rewrite E.
    destruct (IH k a1 t1) as (a2 & t2 & E2 & H2). exists a2, t2. split; [exact E2|]. intros b. destruct (H b) as (b1 & ->). apply H2.
Qed.
Lemma count_filter x l : length (List.filter (str_eqb x) l) = count_occ str_eq_dec l x.
Proof.
  induction l as [|y l IH]; cbn; auto. destruct (str_eq_dec y x) as [->|N].
  - rewrite str_eqb_refl. cbn. now rewrite IH.
  - destruct (str_eqb x y) eqn:Q; [apply str_eqb_eq in Q; congruence|auto].
Qed.
Lemma car_name n d : fortran_name n -> check_array_reference n d = Ok None.
Proof.
  intros F. unfold check_array_reference, check_fortran_id. assert (re_dollar fortran_id_re n = true) as -> by (apply id_dollar; auto using name_no_nl). reflexivity.
Qed.
Lemma car_ref s n dims d sub : array_ref s n dims -> NoDup (map fst d) ->
  check_array_reference s d = Ok sub <->
  exists vdims, In (L "dimensions", PList vdims) d /\ number_of (L ":") dims (length vdims) /\ sub = Some (n ++ L "(" ++ join (L ", ") dims ++ L ")").
Proof.
  intros R N. unfold check_array_reference, check_fortran_id.
  assert (re_dollar fortran_id_re s = false) as ->.
  { destruct (re_dollar fortran_id_re s) eqn:E; auto. apply id_dollar in E; [|eauto using ref_no_nl]. exfalso. eapply ref_not_name; eauto. }
  cbn [fail bind]. assert (re_dollar scalar_ref_re s = true) as -> by (apply re_dollar_spec; left; apply scalar_ref_spec; eauto). cbn [negb].
  rewrite (ref_tokens_spec _ _ _ R). cbn [hd tl]. rewrite count_filter. unfold number_of.
  destruct (look (L "dimensions") d) as [[t|vd]|] eqn:K.
  - split; [discriminate|]. intros (vd & I & _). apply look_in in I; auto. congruence.
  - destruct (Nat.eqb (count_occ str_eq_dec dims (L ":")) (length vd)) eqn:Q.
    + apply Nat.eqb_eq in Q. split; [intros [= <-]; exists vd; split; [now apply look_in|auto]|]. intros (vd' & I & _ & ->). reflexivity.
    + apply Nat.eqb_neq in Q. split; [discriminate|]. intros (vd' & I & C & _). apply look_in in I; auto. rewrite K in I. injection I as <-. congruence.
  - split; [discriminate|]. intros (vd & I & _). apply look_in in I; auto. congruence.
Qed.
Lemma parse_variable_spec C skip ddts K l name ls d rest : (forall v, mem v ddts = true <-> K v) -> variable_start l = Ok (Some name) ->
  parse_variable C skip ddts name ls = Ok (d, rest) <->
  exists body, ls = body ++ rest /\ (forall l, In l body -> inner l) /\ at_stop rest /\ var_means C skip K l body d.
Proof.
  intros HK V. unfold parse_variable. set (nm := L "local_name"). rewrite bind_ok.
  assert (ND : forall ps n, NoDup (map fst (assign_all ps [(nm, PText n)]))) by (intros; apply assign_all_nodup; repeat constructor; intros []).
  assert (HEAD : forall ps s n v, assign (assign_all ps [(nm, PText s)]) nm v = assign (assign_all ps [(nm, PText n)]) nm v /\
     forall x, In (L "dimensions", x) (assign_all ps [(nm, PText s)]) <-> In (L "dimensions", x) (assign_all ps [(nm, PText n)])).
  { intros ps s n v. destruct (assign_all_head ps nm (PText s) []) as (a' & t' & E & H). destruct (H (PText n)) as (b' & E'). rewrite E, E'. split.
    - cbn [assign]. destruct (str_eq_dec nm nm); [reflexivity|congruence].
    - intros x. cbn. split; (intros [X|X]; [discriminate|auto]). }
  split.
  - intros ([d0 r0] & X & Y). apply (var_lines_spec _ _ _ _ _ HK) in X as (body & kvs & ps & -> & B & S & St & F & ->).
    apply bind_ok in Y as (sub & CA & Y). destruct (c_var C _) eqn:CV in Y; [|discriminate]. injection Y as Y1 Y2. subst r0. rewrite Y1 in CV.
    exists body. split; auto. split; auto. split; auto. exists kvs, ps. split; auto. split; auto. split; auto.
    destruct (variable_start_cases l) as [[V' _]|(n & V' & _ & Cs)]; [congruence|]. rewrite V in V'. injection V' as <-.
    destruct Cs as [[Fn Br]|(s & m & dims & R & Br & R')].
    + left. exists name. split; auto. split; auto. rewrite car_name in CA by auto. injection CA as <-. now subst.
    + right. apply (car_ref _ _ _ _ _ R') in CA as (vd & I & N & ->); auto. exists s, m, dims, vd. split; auto. split; auto. fold (assign_all ps [(nm, PText m)]).
      destruct (HEAD ps name m (PText (m ++ L "(" ++ join (L ", ") dims ++ L ")"))) as [H1 H2]. split; [now apply H2|]. split; auto. subst d. rewrite put_assign. exact H1.
  - intros (body & -> & B & S & kvs & ps & St & F & CV & M).
    exists (assign_all ps [(nm, PText name)], rest). split.
    + apply (var_lines_spec _ _ _ _ _ HK). exists body, kvs, ps. auto 10.
    + destruct M as [(n & Fn & Br & E)|(s & n & dims & vd & R & Br & I & N & E)].
      * assert (name = n) by (rewrite (variable_start_name n l Fn Br) in V; congruence). subst n. rewrite car_name by auto. cbn [bind].
        unfold assign_all. fold nm in E. rewrite <- E, CV. reflexivity.
      * destruct (variable_start_ref s n dims l R Br) as (nm' & V' & R'). rewrite V in V'. injection V' as <-.
        fold nm in I, E. fold (assign_all ps [(nm, PText n)]) in I, E.
        destruct (HEAD ps name n (PText (n ++ L "(" ++ join (L ", ") dims ++ L ")"))) as [H1 H2].
        apply bind_ok. exists (Some (n ++ L "(" ++ join (L ", ") dims ++ L ")")). split.
        -- apply (car_ref _ _ _ _ _ R'); auto. exists vd. split; [now apply H2|auto].
        -- rewrite put_assign. fold nm. rewrite H1, <- E, CV. reflexivity.
Qed.

(* ---- the last value of a key ---- *)
Fixpoint lastv (k : str) (kvs : list (str * str)) : option str :=
  match kvs with
  | [] => None
  | (k', v) :: r => match lastv k r with Some x => Some x | None => if str_eqb k' k then Some v else None end
  end.
Lemma lastv_none k kvs : lastv k kvs = None <-> forall v, ~ In (k, v) kvs.
Proof.
  induction kvs as [|[k' v] kvs IH]; cbn [lastv]; [split; auto|]. destruct (lastv k kvs) as [x|].
  - split; [discriminate|]. intros H. assert (X : Some x = None) by (apply IH; intros u I; apply (H u); now right). discriminate.
  - destruct (str_eqb k' k) eqn:Q.
    + apply str_eqb_eq in Q. subst. split; [discriminate|]. intros H. exfalso. apply (H v). now left.
    + apply str_eqb_neq in Q. split; auto. intros _ u [[= -> ->]|I]; [congruence|]. now apply (proj1 IH eq_refl u).
Qed.
Lemma last_set_spec kvs k o : last_set kvs k o <-> lastv k kvs = o.
Proof.
  destruct o as [v|]; cbn [last_set]; [|now rewrite lastv_none]. induction kvs as [|[k' u] kvs IH]; cbn [lastv].
  - split; [|discriminate]. intros (a & b & E & _). destruct a; discriminate.
  - split.
    + intros (a & b & E & N). destruct a as [|x a].
      * injection E as -> -> ->. apply lastv_none in N. now rewrite N, str_eqb_refl.
      * injection E as <- E. assert (lastv k kvs = Some v) as -> by (apply IH; eauto). reflexivity.
    + intros H. destruct (lastv k kvs) as [x|] eqn:Lv.
      * injection H as ->. destruct (proj2 IH eq_refl) as (a & b & -> & N). exists ((k', u) :: a), b. auto.
      * destruct (str_eqb k' k) eqn:Q; [|discriminate]. injection H as ->. apply str_eqb_eq in Q. subst. exists [], kvs. split; auto. now apply lastv_none.
Qed.
Lemma lastv_app k a b : lastv k (a ++ b) = match lastv k b with Some x => Some x | None => lastv k a end.
Proof. induction a as [|[k' v] a IH]; cbn [app lastv]; [destruct (lastv k b); auto|]. rewrite IH. destruct (lastv k b); auto. Qed.
Definition orelse {A} (a b : option A) : option A := match a with Some _ => a | None => b end.

(* ---- the preamble of a section ---- *)
Definition sec_ok (kvs : list (str * str)) : Prop :=
  (forall k v, In (k, v) kvs -> In k [L "name"; L "type"; L "module"; L "process"]) /\
  (forall v, In (L "type", v) kvs -> In v [L "ddt"; L "host"; L "module"; L "scheme"; L "local"]) /\
  (forall v, In (L "module", v) kvs -> v <> L "None").
Definition sec_apply (kvs : list (str * str)) (p : preamble) : preamble :=
  mkP (orelse (lastv (L "name") kvs) (p_title p)) (orelse (lastv (L "type") kvs) (p_type p)) (orelse (lastv (L "module") kvs) (p_module p))
      (match lastv (L "process") kvs with Some x => x | None => p_process p end).
Lemma sec_ok_app a b : sec_ok (a ++ b) <-> sec_ok a /\ sec_ok b.
Proof.
  unfold sec_ok. split.
  - intros (A & B & D). split; (split; [|split]; intros; [eapply A|eapply B|eapply D]; apply in_app_iff; eauto).
  - intros [(A & B & D) (A' & B' & D')]. split; [|split]; intros; apply in_app_iff in H as [H|H]; eauto.
Qed.
Lemma sec_apply_app a b p : sec_apply (a ++ b) p = sec_apply b (sec_apply a p).
Proof.
  unfold sec_apply. rewrite !lastv_app. cbn [p_title p_type p_module p_process]. f_equal.
  - now destruct (lastv (L "name") b).
  - now destruct (lastv (L "type") b).
  - now destruct (lastv (L "module") b).
  - now destruct (lastv (L "process") b).
Qed.
Lemma sec_item_spec p kv p' : sec_item p kv = Ok p' <-> sec_ok [norm kv] /\ p' = sec_apply [norm kv] p.
Proof.
  unfold sec_item, norm. set (k := lower (strip (fst kv))). set (v := strip (snd kv)). clearbody k v.
  unfold sec_apply, sec_ok. cbn [lastv].
  destruct (str_eqb k (L "name")) eqn:Q1.
  { apply str_eqb_eq in Q1. subst k. cbn. split; [intros [= <-]|intros [_ ->]; reflexivity]. split; auto. split; [|split].
    - intros k' v' [[= <- <-]|[]]. auto. - intros v' [[= ? ?]|[]]. - intros v' [[= ? ?]|[]]. }
  destruct (str_eqb k (L "type")) eqn:Q2.
  { apply str_eqb_eq in Q2. subst k. assert (M : mem v header_types = true <-> In v [L "ddt"; L "host"; L "module"; L "scheme"; L "local"]) by apply mem_in.
    destruct (mem v header_types); cbn.
    - split; [intros [= <-]|intros [_ ->]; reflexivity]. split; auto. split; [|split].
      + intros k' v' [[= <- <-]|[]]. auto. + intros v' [[= <-]|[]]. now apply M. + intros v' [[= ? ?]|[]].
    - split; [discriminate|]. intros [(_ & B & _) _]. assert (X : false = true) by (apply M, B; now left). discriminate. }
  destruct (str_eqb k (L "module")) eqn:Q3.
  { apply str_eqb_eq in Q3. subst k. destruct (str_eqb v (L "None")) eqn:Q; cbn.
    - apply str_eqb_eq in Q. split; [discriminate|]. intros [(_ & _ & D) _]. exfalso. apply (D v); [now left|auto].
    - apply str_eqb_neq in Q. split; [intros [= <-]|intros [_ ->]; reflexivity]. split; auto. split; [|split].
      + intros k' v' [[= <- <-]|[]]. auto. + intros v' [[= ? ?]|[]]. + intros v' [[= <-]|[]]. auto. }
  destruct (str_eqb k (L "process")) eqn:Q4.
  { apply str_eqb_eq in Q4. subst k. cbn. split; [intros [= <-]|intros [_ ->]; reflexivity]. split; auto. split; [|split].
    - intros k' v' [[= <- <-]|[]]. auto 6. - intros v' [[= ? ?]|[]]. - intros v' [[= ? ?]|[]]. }
  split; [discriminate|]. intros [(A & _) _]. apply str_eqb_neq in Q1, Q2, Q3, Q4.
  destruct (A k v (or_introl eq_refl)) as [X|[X|[X|[X|[]]]]]; congruence.
Qed.
Lemma sec_items_spec items : forall p p', sec_items p items = Ok p' <-> sec_ok (map norm items) /\ p' = sec_apply (map norm items) p.
Proof.
  induction items as [|kv items IH]; intros p p'; cbn [sec_items map].
  - split; [intros [= <-]; split; [split; [|split]; intros; contradiction|now destruct p]|]. intros [_ ->]. now destruct p.
  - rewrite bind_ok. change (norm kv :: map norm items) with ([norm kv] ++ map norm items). rewrite sec_ok_app, sec_apply_app. split.
    + intros (p1 & H1 & H2). apply sec_item_spec in H1 as [O1 ->]. apply IH in H2 as [O2 ->]. auto.
    + intros [[O1 O2] ->]. exists (sec_apply [norm kv] p). split; [now apply sec_item_spec|now apply IH].
Qed.
Lemma sec_lines_spec ls : forall p p' rest, sec_lines p ls = Ok (p', rest) <->
  exists pre kvs, ls = pre ++ rest /\ (forall l, In l pre -> inner l) /\ at_stop rest /\ settings pre kvs /\ sec_ok kvs /\ p' = sec_apply kvs p.
Proof.
  assert (ID : forall p, sec_apply [] p = p) by (intros []; reflexivity).
  assert (OK0 : sec_ok []) by (split; [|split]; intros; contradiction).
  induction ls as [|l ls IH]; intros p p' rest; cbn [sec_lines].
  - split.
    + intros [= <- <-]. exists [], []. split; auto. split; [intros ? []|]. split; [exact I|]. split; [now apply settings_nil|]. auto.
    + intros (pre & kvs & E & _ & _ & S & _ & ->). symmetry in E. apply app_eq_nil in E as [-> ->]. apply settings_nil in S. subst. now rewrite ID.
  - assert (STOP : section_line l \/ table_line l \/ variable_line l -> (Ok (p, l :: ls) = Ok (p', rest) <->
       exists pre kvs, l :: ls = pre ++ rest /\ (forall l, In l pre -> inner l) /\ at_stop rest /\ settings pre kvs /\ sec_ok kvs /\ p' = sec_apply kvs p)).
    { intros ST. split.
      - intros [= <- <-]. exists [], []. split; auto. split; [intros ? []|]. split; [exact ST|]. split; [now apply settings_nil|]. auto.
      - intros (pre & kvs & E & B & _ & S & F & ->). destruct pre as [|x pre].
        + cbn in E. subst rest. apply settings_nil in S. subst. now rewrite ID.
        + injection E as <- E. destruct (B l (or_introl eq_refl)) as (N1 & N2 & N3). tauto. }
    destruct (variable_start_cases l) as [[V NV]|(n & V & VL & _)]; rewrite V; cbn [bind].
    + destruct (header_start l || table_start l) eqn:H.
      * apply ht_start in H. apply STOP. tauto.
      * apply ht_start_false in H as [H1 H2]. rewrite bind_ok. split.
        -- intros (items & P & X). apply bind_ok in X as (p1 & X1 & X2). apply sec_items_spec in X1 as [O1 ->].
           apply IH in X2 as (pre & kvs & -> & B & S & St & O2 & ->). exists (l :: pre), (map norm items ++ kvs). split; auto.
           split; [intros x [<-|I]; [unfold inner; auto|auto]|]. split; auto. split; [apply settings_cons; eauto|]. split; [now apply sec_ok_app|]. now rewrite sec_apply_app.
        -- intros (pre & kvs & E & B & S & St & O & ->). destruct pre as [|x pre].
           ++ cbn in E. subst rest. cbn in S. tauto.
           ++ injection E as <- E. apply settings_cons in St as (items & kvs' & P & St & ->). exists items. split; auto.
              apply sec_ok_app in O as [O1 O2]. apply bind_ok. exists (sec_apply (map norm items) p). split; [now apply sec_items_spec|].
              apply IH. exists pre, kvs'. split; auto. split; [intros y Y; apply B; now right|]. split; auto. split; auto. split; auto. apply sec_apply_app.
    + apply STOP. tauto.
Qed.

(* ---- the variables of a section ---- *)
Definition flat (bs : list (str * list str)) : list str := List.concat (map (fun hb => fst hb :: snd hb) bs).
Definition at_end (ls : list str) : Prop := match ls with [] => True | l :: _ => section_line l \/ table_line l end.
Lemma at_end_stop ls : at_end ls -> at_stop ls. Proof. destruct ls; cbn; tauto. Qed.
Lemma sec_vars_spec C skip ddts K : (forall v, mem v ddts = true <-> K v) -> forall fuel vs ls vs' rest, length ls < fuel -> at_stop ls ->
  sec_vars fuel C skip ddts vs ls = Ok (vs', rest) <->
  exists bs, ls = flat bs ++ rest /\ (forall h b, In (h, b) bs -> variable_line h /\ ~ section_line h /\ ~ table_line h /\ forall l, In l b -> inner l) /\
    at_end rest /\ vars_mean C skip K vs bs vs'.
Proof.
  intros HK. induction fuel as [|f IH]; intros vs ls vs' rest LF ST; [lia|]. cbn [sec_vars]. destruct ls as [|l r].
  - split.
    + intros [= <- <-]. exists []. split; auto. split; [intros ? ? []|]. split; [exact I|constructor].
    + intros (bs & E & B & A & M). destruct bs as [|[h b] bs]; [|discriminate]. cbn in E. subst rest. inversion M. reflexivity.
  - destruct (header_start l || table_start l) eqn:H.
    + apply ht_start in H. split.
      * intros [= <- <-]. exists []. split; auto. split; [intros ? ? []|]. split; [exact H|constructor].
      * intros (bs & E & B & A & M). destruct bs as [|[h b] bs].
        -- cbn in E. subst rest. inversion M. reflexivity.
        -- unfold flat in E. cbn in E. injection E as <- E. destruct (B l b (or_introl eq_refl)) as (_ & N1 & N2 & _). tauto.
    + apply ht_start_false in H as [H1 H2]. destruct ST as [ST|[ST|ST]]; [contradiction|contradiction|].
      destruct (variable_start_cases l) as [[V NV]|(n & V & VL & _)]; [contradiction|]. rewrite V. cbn [bind]. rewrite bind_ok. cbn [length] in LF. split.
      * intros ([d r1] & P & X). apply (parse_variable_spec _ _ _ _ _ _ _ _ _ HK V) in P as (body & -> & B & S & M).
        destruct (c_add C vs d) eqn:CA; [|discriminate]. rewrite app_length in LF. apply IH in X as (bs & -> & B' & A & M'); [|lia|auto].
        exists ((l, body) :: bs). split; [unfold flat; cbn; now rewrite <- app_assoc|]. split; [intros h b [[= <- <-]|I]; [auto|now apply B']|]. split; auto. econstructor; eauto.
      * intros (bs & E & B & A & M). destruct bs as [|[h b] bs].
        -- cbn in E. subst rest. cbn in A. tauto.
        -- unfold flat in E. cbn in E. injection E as <- E. rewrite <- app_assoc in E. fold (flat bs) in E. inversion M as [|? ? ? ? d ? VM CA M']; subst.
           assert (S : at_stop (flat bs ++ rest)).
           { destruct bs as [|[h' b'] bs]; [now apply at_end_stop|]. cbn. right. right. apply (B h' b'). right. now left. }
           exists (d, flat bs ++ rest). split.
           ++ apply (parse_variable_spec _ _ _ _ _ _ _ _ _ HK V). exists b. split; auto. split; [apply (B l b); now left|]. auto.
           ++ rewrite CA. apply IH; auto.
              ** unfold flat in *. rewrite !app_length in *. lia.
              ** exists bs. split; auto. split; [intros h' b' I; apply B; now right|]. auto.
Qed.

(* ---- sections ---- *)
Lemma settings_stripped ls kvs k v : settings ls kvs -> In (k, v) kvs -> exists u, v = strip u.
Proof.
  revert kvs. induction ls as [|l ls IH]; intros kvs S H.
  - apply settings_nil in S. subst. destruct H.
  - apply settings_cons in S as (items & kvs' & _ & S & ->). apply in_app_iff in H as [H|H]; [|eauto].
    apply in_map_iff in H as (kv & E & _). unfold norm in E. injection E as _ <-. eauto.
Qed.
Lemma scheme_of_spec title n : ~ ends_nl title -> scheme_of title n <-> n = sect_func title scheme_type.
Proof.
  intros N. unfold sect_func. rewrite str_eqb_refl. unfold scheme_of. destruct (fm_function title) as (o & E). rewrite E. destruct o as [[[f t] p]|].
  - pose proof E as H. apply C19_classified in H as (e & T & Q & S & NS). destruct T as [-> | ->].
    2:{ exfalso. apply N. exists (f ++ L "_" ++ t). rewrite <- !app_assoc. exact Q. }
    rewrite app_nil_r in Q. split.
    + intros [(t' & p' & Q' & S' & NS')|[Nn _]]; [|exfalso; eapply Nn; eauto].
      destruct (C19_unambiguous title n t' p' f t p Q' S' NS' Q S NS) as (-> & _). reflexivity.
    + intros ->. left. eauto.
  - pose proof E as H. pose proof (proj1 (C19_unrelated title) H) as U. split.
    + intros [(t' & p' & Q' & S' & NS')|[_ ->]]; auto. exfalso. apply U. exists n, t', p', []. rewrite app_nil_r. auto.
    + intros ->. right. split; auto. intros f t p Q S. apply U. exists f, t, p, []. rewrite app_nil_r. auto.
Qed.
Lemma opt_is_spec o s : opt_is o s = true <-> o = Some s.
Proof. destruct o; cbn; [rewrite str_eqb_eq; split; congruence|split; discriminate]. Qed.
Lemma mismatch_spec title type tname ttype : mismatch title type tname ttype = false <-> ttype = Some type /\ tname = Some (sect_func title type).
Proof. unfold mismatch. now rewrite orb_false_iff, !negb_false_iff, !opt_is_spec. Qed.
Lemma sect_func_other title type : type <> scheme_type -> sect_func title type = title.
Proof. intros N. unfold sect_func. apply str_eqb_neq in N. now rewrite N. Qed.
Lemma at_stop_flat bs rest : (forall h b, In (h, b) bs -> variable_line h) -> at_end rest -> at_stop (flat bs ++ rest).
Proof. intros B A. destruct bs as [|[h b] bs]; [now apply at_end_stop|]. cbn. right. right. apply (B h b). now left. Qed.
Lemma in_flat l bs : In l (flat bs) <-> exists h b, In (h, b) bs /\ (l = h \/ In l b).
Proof.
  unfold flat. rewrite in_concat. split.
  - intros (x & I & J). apply in_map_iff in I as ([h b] & <- & I). exists h, b. split; auto. cbn in J. destruct J; auto.
  - intros (h & b & I & J). exists (h :: b). split; [apply in_map_iff; exists (h, b); auto|]. cbn. destruct J; auto.
Qed.
Lemma parse_section_spec C skip dmod tname ttype ddts K ls s ddts' rest : (forall v, mem v ddts = true <-> K v) ->
  parse_section C skip dmod tname ttype ddts ls = Ok (s, ddts', rest) <->
  exists body, ls = body ++ rest /\ (forall l, In l body -> ~ section_line l /\ ~ table_line l) /\ at_end rest /\
    section_means C skip dmod K tname ttype body s /\ ddts' = (if str_eqb (s_type s) (L "ddt") then ddts ++ [s_title s] else ddts).
Proof.
  intros HK.
  assert (HK' : forall title type, forall v, mem v (if str_eqb type (L "ddt") then ddts ++ [title] else ddts) = true <-> K v \/ (type = L "ddt" /\ v = title)).
  { intros title type v. destruct (str_eqb type (L "ddt")) eqn:Q.
    - apply str_eqb_eq in Q. rewrite mem_in, in_app_iff, <- mem_in, HK. cbn. intuition.
    - apply str_eqb_neq in Q. rewrite HK. tauto. }
  unfold parse_section. rewrite bind_ok. split.
  - intros ([p r1] & SL & X). apply sec_lines_spec in SL as (pre & kvs & -> & B & S & St & O & ->). unfold sec_apply in X. cbn [p_title p_type p_module p_process orelse] in X.
    destruct (lastv (L "name") kvs) as [title|] eqn:LN; [|discriminate]. cbn [orelse] in X. destruct (lastv (L "type") kvs) as [type|] eqn:LT; [|discriminate]. cbn [orelse] in X.
    set (proc := match lastv (L "process") kvs with Some x => x | None => unknown_process end) in *.
    destruct (negb (str_eqb type scheme_type) && negb (str_eqb proc unknown_process)) eqn:PK; [discriminate|].
    destruct (mismatch title type tname ttype) eqn:MM; [discriminate|]. apply mismatch_spec in MM as [MT MN].
    apply bind_ok in X as ([vars rest'] & SV & X). injection X as <- <- <-.
    apply (sec_vars_spec _ _ _ _ (HK' title type)) in SV as (bs & -> & B2 & A & M); [|lia|auto].
    exists (pre ++ flat bs). rewrite <- app_assoc. split; auto. split.
    { intros l I. apply in_app_iff in I as [I|I]; [destruct (B l I); tauto|]. apply in_flat in I as (h & b & I & J). destruct (B2 h b I) as (_ & N1 & N2 & N3). destruct J as [->|J]; [auto|]. destruct (N3 l J); tauto. }
    split; auto. cbn [s_title s_type]. split; [|reflexivity].
    exists pre, bs, kvs, (lastv (L "process") kvs). split.
    { split; auto. split; [intros l I; apply B, I|]. intros h b I. destruct (B2 h b I) as (V & _ & _ & N). split; auto. intros l J. apply N, J. }
    split; auto. destruct O as (O1 & O2 & O3). cbn [s_title s_type s_module s_process s_vars]. split; auto. split; auto. split; auto.
    split; [now apply last_set_spec|]. split; [now apply last_set_spec|]. split.
    { destruct (lastv (L "module") kvs) as [m|] eqn:LM.
      - left. apply last_set_spec. rewrite LM. f_equal. pose proof LM as LM'. cbn in LM'. rewrite LM'. reflexivity.
      - right. split; [now apply last_set_spec|]. pose proof LM as LM'. cbn in LM'. rewrite LM'. reflexivity. }
    split; [now apply last_set_spec|]. split; [reflexivity|]. split.
    { intros NP. destruct (str_eqb type scheme_type) eqn:Q; [now apply str_eqb_eq in Q|]. cbn in PK. apply negb_false_iff, str_eqb_eq in PK. contradiction. }
    split; auto. split; [|exact M].
    exists (sect_func title type). split; auto. destruct (str_eq_dec type scheme_type) as [->|NS].
    + left. split; auto. apply scheme_of_spec; auto. destruct (settings_stripped pre kvs (L "name") title) as (u & ->); auto; [|apply strip_no_nl].
      apply last_set_spec in LN. destruct LN as (a & b & -> & _). apply in_app_iff. right. now left.
    + right. split; auto. symmetry. now apply sect_func_other.
  - intros (body & -> & B & A & (pre & bs & kvs & proc & (-> & P1 & P2) & St & O1 & O2 & O3 & LN & LT & LM & LP & EP & NP & MT & (n & MN & Cs) & M) & ->).
    assert (Bpre : forall l, In l pre -> inner l).
    { intros l I. destruct (B l) as [N1 N2]; [apply in_app_iff; now left|]. split; auto. }
    assert (Bbs : forall h b, In (h, b) bs -> variable_line h /\ ~ section_line h /\ ~ table_line h /\ forall l, In l b -> inner l).
    { intros h b I. destruct (P2 h b I) as [V N]. assert (F : forall l, l = h \/ In l b -> ~ section_line l /\ ~ table_line l) by (intros l J; apply B; apply in_app_iff; right; apply in_flat; eauto).
      split; auto. destruct (F h (or_introl eq_refl)) as [F1 F2]. split; auto. split; auto. intros l J. destruct (F l (or_intror J)). split; auto. }
    fold (flat bs).
    exists (sec_apply kvs (mkP None None None unknown_process), flat bs ++ rest). split.
    + apply sec_lines_spec. exists pre, kvs. rewrite app_assoc. split; auto. split; auto. split; [apply at_stop_flat; auto; intros h b I; apply (Bbs h b I)|]. split; auto. split; [split; auto|reflexivity].
    + unfold sec_apply. cbn [p_title p_type p_module p_process orelse].
      apply last_set_spec in LN, LT, LP. rewrite LN, LT, LP. cbn [orelse]. fold unknown_process in EP. rewrite <- EP.
      assert (PK : negb (str_eqb (s_type s) scheme_type) && negb (str_eqb (s_process s) unknown_process) = false).
      { destruct (str_eqb (s_process s) unknown_process) eqn:Q; [apply andb_false_r|]. apply str_eqb_neq in Q. rewrite (NP Q). reflexivity. }
      rewrite PK. assert (MM : mismatch (s_title s) (s_type s) tname ttype = false).
      { apply mismatch_spec. split; auto. rewrite MN. f_equal. destruct Cs as [[E S]|[NS <-]]; [|symmetry; now apply sect_func_other].
        rewrite E. apply scheme_of_spec; auto. destruct (settings_stripped pre kvs (L "name") (s_title s)) as (u & ->); auto; [|apply strip_no_nl].
        apply last_set_spec in LN. destruct LN as (a & b & -> & _). apply in_app_iff. right. now left. }
      rewrite MM. apply bind_ok. exists (s_vars s, rest). split.
      * apply (sec_vars_spec _ _ _ _ (HK' (s_title s) (s_type s))); [lia|apply at_stop_flat; auto; intros h b I; apply (Bbs h b I)|]. exists bs. auto.
      * f_equal. f_equal. f_equal. destruct LM as [LM|[LM E]]; apply last_set_spec in LM; rewrite LM; cbn [orelse]; destruct s; cbn in *; congruence.
Qed.

(* ---- the header of a table ---- *)
Definition tab_ok (kvs : list (str * str)) : Prop :=
  (forall k v, In (k, v) kvs -> In k [L "name"; L "type"; L "dependencies"; L "relative_path"]) /\
  (forall v, In (L "type", v) kvs -> In v [L "ddt"; L "host"; L "module"; L "scheme"]).
(* the effect of the dependencies settings *)
Fixpoint dep_apply (vs : list str) (o : option (list str)) : option (option (list str)) :=
  match vs with
  | [] => Some o
  | v :: r => if str_eqb (lower v) (L "none") then match o with Some (_ :: _) => None | _ => dep_apply r None end
              else match o with None => None | Some ds => dep_apply r (Some (ds ++ dep_names v)) end
  end.
Lemma dep_apply_app a b o : dep_apply (a ++ b) o = match dep_apply a o with Some o' => dep_apply b o' | None => None end.
Proof.
  revert o. induction a as [|v a IH]; intros o; cbn [app dep_apply]; auto. destruct (str_eqb (lower v) (L "none")).
  - destruct o as [[|x l]|]; auto.
  - destruct o; auto.
Qed.
Lemma values_app k a b : values_of k (a ++ b) = values_of k a ++ values_of k b.
Proof. unfold values_of. now rewrite filter_app, map_app. Qed.
Definition tab_rel (kvs : list (str * str)) (h h' : thead) : Prop :=
  tab_ok kvs /\ h_name h' = orelse (lastv (L "name") kvs) (h_name h) /\ h_type h' = orelse (lastv (L "type") kvs) (h_type h) /\
  h_path h' = orelse (lastv (L "relative_path") kvs) (h_path h) /\ dep_apply (values_of (L "dependencies") kvs) (h_deps h) = Some (h_deps h').
Lemma tab_ok_app a b : tab_ok (a ++ b) <-> tab_ok a /\ tab_ok b.
Proof.
  unfold tab_ok. split.
  - intros (A & B). split; (split; intros; [eapply A|eapply B]; apply in_app_iff; eauto).
  - intros [(A & B) (A' & B')]. split; intros; apply in_app_iff in H as [H|H]; eauto.
Qed.
Lemma tab_rel_app a b h h' : tab_rel (a ++ b) h h' <-> exists h1, tab_rel a h h1 /\ tab_rel b h1 h'.
Proof.
  unfold tab_rel. rewrite tab_ok_app, !lastv_app, values_app, dep_apply_app. split.
  - intros ((O1 & O2) & N & T & P & D). destruct (dep_apply (values_of (L "dependencies") a) (h_deps h)) as [o|] eqn:DA; [|discriminate].
    exists (mkH (orelse (lastv (L "name") a) (h_name h)) (orelse (lastv (L "type") a) (h_type h)) o (orelse (lastv (L "relative_path") a) (h_path h))).
    cbn [h_name h_type h_path h_deps]. repeat (split; auto); [rewrite N; destruct (lastv (L "name") b)|rewrite T; destruct (lastv (L "type") b)|rewrite P; destruct (lastv (L "relative_path") b)]; reflexivity.
  - intros (h1 & (O1 & N1 & T1 & P1 & D1) & O2 & N2 & T2 & P2 & D2). rewrite D1. split; auto. rewrite N2, T2, P2, N1, T1, P1. split; [|split; [|split]]; auto; [destruct (lastv (L "name") b)|destruct (lastv (L "type") b)|destruct (lastv (L "relative_path") b)]; reflexivity.
Qed.
Lemma values_one k k' v : values_of k [(k', v)] = if str_eqb k' k then [v] else [].
Proof. unfold values_of. cbn. destruct (str_eq_dec k' k) as [->|N]; [now rewrite str_eqb_refl|]. apply str_eqb_neq in N. now rewrite N. Qed.
Ltac fin := repeat split; auto; try (intros k' v' [X|[]]; injection X as <- <-; cbn; auto 6); try (intros v' [X|[]]; discriminate X).
Lemma tab_item_spec h kv h' : tab_item h kv = Ok h' <-> tab_rel [norm kv] h h'.
Proof.
  unfold tab_item, norm. set (k := lower (strip (fst kv))). set (v := strip (snd kv)). clearbody k v.
  unfold tab_rel, tab_ok. cbn [lastv]. rewrite values_one. destruct h as [hn ht hd hp]. destruct h' as [hn' ht' hd' hp']. cbn [h_name h_type h_deps h_path].
  destruct (str_eqb k (L "name")) eqn:Q1.
  { apply str_eqb_eq in Q1. subst k. cbn -[dep_apply]. cbn [dep_apply]. split.
    - intros [= <- <- <- <-]. repeat split; auto; [intros k' v' [[= <- <-]|[]]; auto|intros v' [[= ? ?]|[]]].
    - intros (_ & -> & -> & -> & [= ->]). reflexivity. }
  destruct (str_eqb k (L "type")) eqn:Q2.
  { apply str_eqb_eq in Q2. subst k. assert (M : mem v table_types = true <-> In v [L "ddt"; L "host"; L "module"; L "scheme"]) by apply mem_in.
    destruct (mem v table_types); cbn -[dep_apply]; cbn [dep_apply].
    - split.
      + intros [= <- <- <- <-]. repeat split; auto; [intros k' v' [[= <- <-]|[]]; auto|intros v' [[= <-]|[]]; now apply M].
      + intros (_ & -> & -> & -> & [= ->]). reflexivity.
    - split; [discriminate|]. intros ((_ & B) & _). assert (X : false = true) by (apply M, B; now left). discriminate. }
  destruct (str_eqb k (L "dependencies")) eqn:Q3.
  { apply str_eqb_eq in Q3. subst k. destruct (str_eqb (L "dependencies") (L "relative_path")) eqn:Z3; [discriminate Z3|]. cbn [dep_apply orelse]. destruct (str_eqb (lower v) (L "none")).
    - destruct hd as [[|x l]|].
      + split; [intros [= <- <- <- <-]; fin|]. intros (_ & -> & -> & -> & [= ->]). reflexivity.
      + split; [discriminate|]. intros (_ & _ & _ & _ & X). discriminate.
      + split; [intros [= <- <- <- <-]; fin|]. intros (_ & -> & -> & -> & [= ->]). reflexivity.
    - destruct hd as [l|].
      + split; [intros [= <- <- <- <-]; fin|]. intros (_ & -> & -> & -> & [= ->]). reflexivity.
      + split; [discriminate|]. intros (_ & _ & _ & _ & X). discriminate. }
  destruct (str_eqb k (L "relative_path")) eqn:Q4.
  { apply str_eqb_eq in Q4. subst k. cbn -[dep_apply]. cbn [dep_apply]. split.
    - intros [= <- <- <- <-]. repeat split; auto; [intros k' v' [[= <- <-]|[]]; auto 6|intros v' [[= ? ?]|[]]].
    - intros (_ & -> & -> & -> & [= ->]). reflexivity. }
  split; [discriminate|]. intros ((A & _) & _). apply str_eqb_neq in Q1, Q2, Q3, Q4.
  destruct (A k v (or_introl eq_refl)) as [X|[X|[X|[X|[]]]]]; congruence.
Qed.
Lemma tab_rel_nil h h' : tab_rel [] h h' <-> h' = h.
Proof.
  unfold tab_rel, tab_ok. cbn. destruct h, h'; cbn. split; [intros (_ & -> & -> & -> & [= ->]); reflexivity|]. intros [= -> -> -> ->]. repeat split; auto; intros; contradiction.
Qed.
Lemma tab_items_spec items : forall h h', tab_items h items = Ok h' <-> tab_rel (map norm items) h h'.
Proof.
  induction items as [|kv items IH]; intros h h'; cbn [tab_items map].
  - rewrite tab_rel_nil. split; [intros [= ->]; auto|intros ->; auto].
  - rewrite bind_ok. change (norm kv :: map norm items) with ([norm kv] ++ map norm items). rewrite tab_rel_app. split.
    + intros (h1 & H1 & H2). exists h1. split; [now apply tab_item_spec|now apply IH].
    + intros (h1 & H1 & H2). exists h1. split; [now apply tab_item_spec|now apply IH].
Qed.

(* ---- the sections of a table ---- *)
Definition tab_end (ls : list str) : Prop := match ls with [] => True | l :: _ => table_line l end.
Definition sec_blocks (bs : list (str * list str)) : Prop :=
  forall h b, In (h, b) bs -> section_line h /\ ~ table_line h /\ forall l, In l b -> ~ section_line l /\ ~ table_line l.
Definition single (h : thead) : bool := match h_type h with Some t => mem t singleton_types | None => false end.
Lemma section_type C skip dmod K tn tt body s : section_means C skip dmod K tn tt body s -> tt = Some (s_type s) /\ (s_type s = L "ddt" -> tn = Some (s_title s)).
Proof.
  intros (pre & bs & kvs & proc & _ & _ & _ & _ & _ & _ & _ & _ & _ & _ & _ & MT & (n & MN & Cs) & _). split; auto. intros E. destruct Cs as [[E' _]|[_ <-]]; [|auto].
  rewrite E in E'. discriminate.
Qed.
Lemma not_single_ddt h t : single h = false -> h_type h = Some t -> str_eqb t (L "ddt") = false.
Proof. intros S E. unfold single in S. rewrite E in S. cbn in S. apply orb_false_iff in S as [S _]. exact S. Qed.
Lemma flat_cons h b bs : flat ((h, b) :: bs) = h :: b ++ flat bs. Proof. reflexivity. Qed.
Lemma at_end_flat bs rest : sec_blocks bs -> tab_end rest -> at_end (flat bs ++ rest).
Proof. intros B E. destruct bs as [|[h b] bs]; [destruct rest; cbn in *; auto|]. cbn. left. apply (B h b). now left. Qed.
Section Secs.
Variables (C : checker) (skip : bool) (dmod : str) (K : str -> Prop).
Lemma tab_secs_step fuel h secs ddts l r h' secs' ddts' rest : (forall v, mem v ddts = true <-> K v) -> section_line l -> ~ table_line l ->
  tab_lines (S fuel) C skip dmod false h secs ddts (l :: r) = Ok (h', secs', ddts', rest) <->
  exists body rest1 s, r = body ++ rest1 /\ (forall x, In x body -> ~ section_line x /\ ~ table_line x) /\ at_end rest1 /\
    section_means C skip dmod K (h_name h) (h_type h) body s /\ Nat.eqb (length secs) 1 && single h = false /\
    tab_lines fuel C skip dmod false h (secs ++ [s]) (if str_eqb (s_type s) (L "ddt") then ddts ++ [s_title s] else ddts) rest1 = Ok (h', secs', ddts', rest).
Proof.
  intros HK SL NT. cbn [tab_lines]. apply table_start_false in NT. rewrite NT. cbn [andb].
  assert (NB : blank_metadata_line l = false) by (apply blank_false; eapply marker_not_blank; exact SL). rewrite NB.
  apply header_start_spec in SL. rewrite SL, bind_ok. split.
  - intros ([[s d1] r1] & P & X). apply (parse_section_spec _ _ _ _ _ _ _ _ _ _ _ HK) in P as (body & -> & B & A & M & ->).
    fold (single h) in X. destruct (Nat.eqb (length secs) 1 && single h) eqn:Q; [discriminate|]. exists body, r1, s. auto 10.
  - intros (body & r1 & s & -> & B & A & M & Q & X). exists (s, if str_eqb (s_type s) (L "ddt") then ddts ++ [s_title s] else ddts, r1). split.
    + apply (parse_section_spec _ _ _ _ _ _ _ _ _ _ _ HK). exists body. auto 10.
    + fold (single h). rewrite Q. exact X.
Qed.
Lemma tab_stop fuel h secs ddts ls b : tab_end ls -> tab_lines (S fuel) C skip dmod b h secs ddts ls = Ok (h, secs, ddts, ls).
Proof. destruct ls as [|l r]; auto. cbn. intros T. apply table_start_spec in T. now rewrite T. Qed.
Lemma table_line_dec l : table_line l \/ ~ table_line l.
Proof. rewrite <- table_start_spec. destruct (table_start l); auto. Qed.
Lemma tab_secs_many h ddts : (forall v, mem v ddts = true <-> K v) -> single h = false -> forall fuel secs ls h' secs' ddts' rest, length ls < fuel -> at_end ls ->
  tab_lines fuel C skip dmod false h secs ddts ls = Ok (h', secs', ddts', rest) <->
  h' = h /\ ddts' = ddts /\ exists bs new, ls = flat bs ++ rest /\ sec_blocks bs /\ tab_end rest /\ secs' = secs ++ new /\
    Forall2 (fun hb s => section_means C skip dmod K (h_name h) (h_type h) (snd hb) s) bs new.
Proof.
  intros HK NS. induction fuel as [|f IH]; intros secs ls h' secs' ddts' rest LF AE; [lia|].
  assert (CASE : tab_end ls \/ exists l r, ls = l :: r /\ section_line l /\ ~ table_line l).
  { destruct ls as [|l r]; [left; exact I|]. destruct (table_line_dec l); [left; auto|]. right. exists l, r. destruct AE; [auto|contradiction]. }
  destruct CASE as [TE|(l & r & -> & SL & NT)].
  - rewrite (tab_stop f h secs ddts ls false TE). split.
    + intros [= <- <- <- <-]. split; auto. split; auto. exists [], []. split; auto. split; [intros ? ? []|]. split; auto. split; [now rewrite app_nil_r|constructor].
    + intros (-> & -> & bs & new & E & B & T & -> & F). destruct bs as [|[h0 b] bs].
      * inversion F. subst. now rewrite app_nil_r.
      * rewrite flat_cons in E. cbn in E. subst ls. cbn in TE. destruct (B h0 b (or_introl eq_refl)) as (_ & N & _). contradiction.
  - rewrite tab_secs_step by auto. cbn [length] in LF. split.
    + intros (body & r1 & s & -> & B & A & M & _ & X). pose proof (proj1 (section_type _ _ _ _ _ _ _ _ M)) as ET. rewrite (not_single_ddt h _ NS ET) in X.
      rewrite app_length in LF. apply IH in X as (-> & -> & bs & new & -> & SB & T & -> & F); [|lia|auto].
      split; auto. split; auto. exists ((l, body) :: bs), (s :: new). split; [rewrite flat_cons; cbn; now rewrite <- app_assoc|].
      split; [intros h0 b [[= <- <-]|I]; [auto|now apply SB]|]. split; auto. split; [now rewrite <- app_assoc|]. constructor; auto.
    + intros (-> & -> & bs & new & E & SB & T & -> & F). destruct bs as [|[h0 b] bs].
      * cbn in E. subst rest. cbn in T. contradiction.
      * rewrite flat_cons in E. cbn in E. injection E as <- E. rewrite <- app_assoc in E. inversion F as [|? s ? new' M F']; subst. cbn [snd] in M.
        assert (SB' : sec_blocks bs) by (intros ? ? I; apply SB; now right).
        exists b, (flat bs ++ rest), s. split; auto. split; [apply (SB l b); now left|]. split; [now apply at_end_flat|]. split; auto. split; [now rewrite NS, andb_false_r|].
        rewrite (not_single_ddt h _ NS (proj1 (section_type _ _ _ _ _ _ _ _ M))).
        rewrite app_length in LF. apply IH; [lia|now apply at_end_flat|]. split; auto. split; auto. exists bs, new'. split; auto. split; auto. split; auto. split; [now rewrite <- app_assoc|auto].
Qed.
(* what is known after the sections *)
Definition known_after (ddts ddts' : list str) (secs : list section) : Prop :=
  forall v, mem v ddts' = true <-> mem v ddts = true \/ exists s, In s secs /\ s_type s = L "ddt" /\ s_title s = v.
Lemma tab_secs h ddts fuel ls : (forall v, mem v ddts = true <-> K v) -> length ls < fuel -> at_end ls -> forall h' secs' rest,
  (exists ddts', tab_lines fuel C skip dmod false h [] ddts ls = Ok (h', secs', ddts', rest)) <->
  h' = h /\ exists bs, ls = flat bs ++ rest /\ sec_blocks bs /\ tab_end rest /\
    Forall2 (fun hb s => section_means C skip dmod K (h_name h) (h_type h) (snd hb) s) bs secs' /\ (single h = true -> length bs <= 1).
Proof.
  intros HK LF AE h' secs' rest. destruct (single h) eqn:SG.
  - destruct fuel as [|f]; [lia|].
    assert (CASE : tab_end ls \/ exists l r, ls = l :: r /\ section_line l /\ ~ table_line l).
    { destruct ls as [|l r]; [left; exact I|]. destruct (table_line_dec l); [left; auto|]. right. exists l, r. destruct AE; [auto|contradiction]. }
    destruct CASE as [TE|(l & r & -> & SL & NT)].
    + rewrite (tab_stop f h [] ddts ls false TE). split.
      * intros (d' & [= <- <- <- <-]). split; auto. exists []. split; auto. split; [intros ? ? []|]. split; [exact TE|]. split; [constructor|cbn; lia].
      * intros (-> & bs & E & B & T & F & _). exists ddts. destruct bs as [|[h0 b] bs].
        -- inversion F. subst. reflexivity.
        -- rewrite flat_cons in E. cbn in E. subst ls. cbn in TE. destruct (B h0 b (or_introl eq_refl)) as (_ & N & _). contradiction.
    + cbn [length] in LF. destruct f as [|f]; [lia|]. split.
      * intros (d' & X). rewrite tab_secs_step in X by auto. destruct X as (body & r1 & s & -> & B & A & M & _ & X). cbn [app] in X.
        destruct r1 as [|l1 r1].
        -- cbn in X. injection X as <- <- _ <-. split; auto. exists [(l, body)]. split; [unfold flat; cbn; now rewrite !app_nil_r|].
           split; [intros h0 b [[= <- <-]|[]]; auto|]. split; [exact I|]. split; [repeat constructor; auto|cbn; auto].
        -- destruct (table_line_dec l1) as [T1|NT1].
           ++ rewrite tab_stop in X by exact T1. injection X as <- <- _ <-. split; auto. exists [(l, body)]. split; [unfold flat; cbn; rewrite app_nil_r; reflexivity|].
              split; [intros h0 b [[= <- <-]|[]]; auto|]. split; [exact T1|]. split; [repeat constructor; auto|cbn; auto].
           ++ destruct A as [S1|]; [|contradiction]. cbn [tab_lines] in X.
              rewrite (proj2 (table_start_false l1) NT1) in X. cbn [andb] in X.
              rewrite (proj2 (blank_false l1) (marker_not_blank _ _ S1)), (proj2 (header_start_spec l1) S1) in X.
              apply bind_ok in X as ([[s2 d2] r2] & _ & X). fold (single h) in X. rewrite SG in X. discriminate.
      * intros (-> & bs & E & SB & T & F & Len). specialize (Len eq_refl). destruct bs as [|[h0 b] [|? bs]].
        -- cbn in E. subst rest. cbn in T. contradiction.
        -- rewrite flat_cons in E. cbn in E. injection E as <- E. rewrite app_nil_r in E. inversion F as [|? s ? new' M F']; subst. inversion F'. subst. cbn [snd] in M.
           eexists. rewrite tab_secs_step by auto. exists b, rest, s. split; auto. split; [apply (SB l b); now left|]. split; [destruct rest; cbn in *; auto|]. split; auto. split; [reflexivity|].
           cbn [app]. apply tab_stop. exact T.
        -- cbn in Len. lia.
  - split.
    + intros (d' & X). apply (tab_secs_many h ddts HK SG) in X as (-> & _ & bs & new & -> & SB & T & -> & F); auto. split; auto. exists bs. split; auto. split; auto. split; auto. split; [exact F|discriminate].
    + intros (-> & bs & -> & SB & T & F & _). exists ddts. apply (tab_secs_many h ddts HK SG); auto. split; auto. split; auto. exists bs, secs'. auto 10.
Qed.
Lemma tab_known h fuel : forall b secs ddts ls h' secs' ddts' rest, tab_lines fuel C skip dmod b h secs ddts ls = Ok (h', secs', ddts', rest) ->
  exists new, secs' = secs ++ new /\ known_after ddts ddts' new.
Proof.
  revert h. induction fuel as [|f IH]; intros h b secs ddts ls h' secs' ddts' rest X; [discriminate|]. cbn [tab_lines] in X.
  assert (Z : known_after ddts ddts []) by (intros v; split; [auto|intros [H|(s & [] & _)]; auto]).
  destruct ls as [|l r]; [injection X as _ <- <- _; exists []; split; [now rewrite app_nil_r|auto]|].
  destruct (table_start l); [injection X as _ <- <- _; exists []; split; [now rewrite app_nil_r|auto]|].
  destruct (blank_metadata_line l); [eauto|]. destruct (b && negb (header_start l)).
  - apply bind_ok in X as (items & _ & X). apply bind_ok in X as (h1 & _ & X). eauto.
  - destruct (header_start l); [|discriminate]. apply bind_ok in X as ([[s d1] r1] & P & X). destruct (_ && _) in X; [discriminate|].
    assert (KD : forall v, mem v ddts = true <-> (fun v => mem v ddts = true) v) by tauto.
    apply (parse_section_spec _ _ _ _ _ _ _ _ _ _ _ KD) in P as (body & _ & _ & _ & _ & ->). apply IH in X as (new & -> & KA). exists (s :: new). split; [now rewrite <- app_assoc|].
    intros v. rewrite (KA v). destruct (str_eqb (s_type s) (L "ddt")) eqn:Q.
    + apply str_eqb_eq in Q. rewrite !mem_in, in_app_iff. split.
      * intros [[I|[<-|[]]]|(s' & I & J)]; [now left|right; exists s; split; [now left|auto]|right; exists s'; split; [now right|auto]].
      * intros [I|(s' & [<-|I] & J1 & J2)]; [left; left; auto|left; right; left; auto|right; eauto].
    + apply str_eqb_neq in Q. split.
      * intros [I|(s' & I & J)]; [now left|]. right. exists s'. split; [now right|auto].
      * intros [I|(s' & [<-|I] & J1 & J2)]; [now left|contradiction|right; eauto].
Qed.
(* the whole table *)
Lemma tab_head ddts : (forall v, mem v ddts = true <-> K v) -> forall fuel h ls h' secs' rest, length ls < fuel ->
  (exists ddts', tab_lines fuel C skip dmod true h [] ddts ls = Ok (h', secs', ddts', rest)) <->
  exists pre bs kvs, ls = pre ++ flat bs ++ rest /\ (forall l, In l pre -> ~ section_line l /\ ~ table_line l) /\ settings pre kvs /\ tab_rel kvs h h' /\
    sec_blocks bs /\ tab_end rest /\ Forall2 (fun hb s => section_means C skip dmod K (h_name h') (h_type h') (snd hb) s) bs secs' /\ (single h' = true -> length bs <= 1).
Proof.
  intros HK. induction fuel as [|f IH]; intros h ls h' secs' rest LF; [lia|].
  assert (ATEND : at_end ls -> (exists ddts', tab_lines (S f) C skip dmod false h [] ddts ls = Ok (h', secs', ddts', rest)) <->
    exists pre bs kvs, ls = pre ++ flat bs ++ rest /\ (forall l, In l pre -> ~ section_line l /\ ~ table_line l) /\ settings pre kvs /\ tab_rel kvs h h' /\
    sec_blocks bs /\ tab_end rest /\ Forall2 (fun hb s => section_means C skip dmod K (h_name h') (h_type h') (snd hb) s) bs secs' /\ (single h' = true -> length bs <= 1)).
  { intros AE. rewrite tab_secs by auto. split.
    - intros (-> & bs & -> & SB & T & F & Len). exists [], bs, []. split; auto. split; [intros ? []|]. split; [now apply settings_nil|]. split; [now apply tab_rel_nil|]. auto.
    - intros (pre & bs & kvs & -> & P & S & R & SB & T & F & Len). destruct pre as [|x pre].
      + apply settings_nil in S. subst kvs. apply tab_rel_nil in R. subst h'. split; auto. exists bs. auto.
      + cbn in AE. destruct (P x (or_introl eq_refl)). tauto. }
  destruct ls as [|l r].
  - rewrite <- ATEND by exact I. reflexivity.
  - destruct (table_line_dec l) as [TL|NT].
    + rewrite <- ATEND by (cbn; auto). cbn [tab_lines]. rewrite (proj2 (table_start_spec l) TL). reflexivity.
    + destruct (header_start l) eqn:HS.
      * rewrite <- ATEND by (cbn; left; now apply header_start_spec). cbn [tab_lines]. rewrite HS. reflexivity.
      * pose proof (proj1 (header_start_false l) HS) as NS.
        assert (STEP : (exists ddts', tab_lines (S f) C skip dmod true h [] ddts (l :: r) = Ok (h', secs', ddts', rest)) <->
           exists items h1, parse_config_line l = Ok items /\ tab_items h items = Ok h1 /\ exists ddts', tab_lines f C skip dmod true h1 [] ddts r = Ok (h', secs', ddts', rest)).
        { cbn [tab_lines]. rewrite (proj2 (table_start_false l) NT), HS. cbn [negb andb]. destruct (blank_metadata_line l) eqn:BL.
          - assert (PC : parse_config_line l = Ok []) by (unfold parse_config_line; now rewrite BL). rewrite PC. split.
            + intros (d & X). exists [], h. split; auto. split; auto. eauto.
            + intros (items & h1 & [= <-] & [= <-] & d & X). eauto.
          - split.
            + intros (d & X). apply bind_ok in X as (items & P & X). apply bind_ok in X as (h1 & T & X). eauto 8.
            + intros (items & h1 & P & T & d & X). exists d. apply bind_ok. exists items. split; auto. apply bind_ok. exists h1. auto. }
        rewrite STEP. cbn [length] in LF. split.
        -- intros (items & h1 & P & T & X). apply IH in X as (pre & bs & kvs & -> & B & S & R & SB & TE & F & Len); [|lia].
           exists (l :: pre), bs, (map norm items ++ kvs). split; auto. split; [intros x [<-|I]; auto|]. split; [apply settings_cons; eauto|].
           split; [apply tab_rel_app; exists h1; split; [now apply tab_items_spec|auto]|]. auto.
        -- intros (pre & bs & kvs & E & B & S & R & SB & TE & F & Len). destruct pre as [|x pre].
           ++ exfalso. destruct bs as [|[h0 b] bs].
              ** cbn in E. subst rest. cbn in TE. contradiction.
              ** rewrite flat_cons in E. injection E as <- _. destruct (SB l b (or_introl eq_refl)). contradiction.
           ++ injection E as <- E. apply settings_cons in S as (items & kvs' & P & S & ->). apply tab_rel_app in R as (h1 & R1 & R2).
              exists items, h1. split; auto. split; [now apply tab_items_spec|]. apply IH; [lia|]. exists pre, bs, kvs'. split; auto. split; [intros y Y; apply B; now right|]. auto 10.
Qed.
End Secs.

(* ---- dependencies ---- *)
Lemma names_in_spec v ds : names_in v ds <-> ds = dep_names v.
Proof. unfold names_in, dep_names. reflexivity. Qed.
Lemma dep_none vs o : dep_apply vs None = Some o <-> o = None /\ forall v, In v vs -> is_none v.
Proof.
  induction vs as [|v vs IH]; cbn [dep_apply].
  - split; [intros [= <-]; split; auto; intros ? []|]. intros [-> _]. reflexivity.
  - destruct (str_eqb (lower v) (L "none")) eqn:Q.
    + apply str_eqb_eq in Q. rewrite IH. split; intros [-> H]; split; auto; [intros x [<-|I]; auto|intros x I; apply H; now right].
    + apply str_eqb_neq in Q. split; [discriminate|]. intros [_ H]. exfalso. apply Q. apply H. now left.
Qed.
Lemma dep_some vs : forall acc o, dep_apply vs (Some acc) = Some o <->
  ((forall v, In v vs -> ~ is_none v) /\ o = Some (acc ++ List.concat (map dep_names vs))) \/
  (exists a b, vs = a ++ b /\ b <> [] /\ acc = [] /\ (forall v, In v a -> ~ is_none v /\ dep_names v = []) /\ (forall v, In v b -> is_none v) /\ o = None).
Proof.
  induction vs as [|v vs IH]; intros acc o; cbn [dep_apply map List.concat].
  - split.
    + intros [= <-]. left. split; [intros ? []|now rewrite app_nil_r].
    + intros [[_ ->]|(a & b & E & N & _)]; [now rewrite app_nil_r|]. symmetry in E. apply app_eq_nil in E as [_ E]. contradiction.
  - destruct (str_eqb (lower v) (L "none")) eqn:Q.
    + apply str_eqb_eq in Q. destruct acc as [|x acc].
      * rewrite dep_none. split.
        -- intros [-> H]. right. exists [], (v :: vs). split; auto. split; [discriminate|]. split; auto. split; [intros ? []|]. split; auto. intros u [<-|I]; auto.
        -- intros [[H _]|(a & b & E & N & _ & A & B & ->)].
           ++ exfalso. apply (H v); [now left|exact Q].
           ++ split; auto. destruct a as [|y a]; [cbn in E; subst b; intros u I; apply B; now right|]. injection E as <- E. exfalso. destruct (A v) as [X _]; [now left|contradiction].
      * split; [discriminate|]. intros [[H _]|(a & b & _ & _ & X & _)]; [|discriminate]. exfalso. apply (H v); [now left|exact Q].
    + apply str_eqb_neq in Q. rewrite IH. split.
      * intros [[H ->]|(a & b & -> & N & X & A & B & ->)].
        -- left. split; [intros u [<-|I]; auto|]. now rewrite app_assoc.
        -- apply app_eq_nil in X as [-> D]. right. exists (v :: a), b. split; auto. split; auto. split; auto. split; [intros u [<-|I]; auto|]. auto.
      * intros [[H ->]|(a & b & E & N & X & A & B & ->)].
        -- left. split; [intros u I; apply H; now right|]. now rewrite app_assoc.
        -- destruct a as [|y a]; [cbn in E; subst b; exfalso; apply Q; apply B; now left|]. injection E as <- E. right. exists a, b. split; auto. split; auto.
           destruct (A v) as [_ D]; [now left|]. split; [now rewrite X, D|]. split; [intros u I; apply A; now right|]. auto.
Qed.
Lemma dependencies_spec vs ds : dependencies vs ds <-> exists o, dep_apply vs (Some []) = Some o /\ ds = match o with Some d => d | None => [] end.
Proof.
  assert (EACH : forall vs each, Forall2 names_in vs each <-> each = map dep_names vs).
  { clear. intros vs. induction vs as [|v vs IH]; intros each; cbn.
    - split; [intros H; inversion H; auto|intros ->; constructor].
    - split.
      + intros H. inversion H as [|? x ? each' X F]; subst. apply names_in_spec in X. apply IH in F. rewrite X, F. reflexivity.
      + intros ->. constructor; [now apply names_in_spec|now apply IH]. }
  unfold dependencies. split.
  - intros [[H (each & F & ->)]|(a & b & -> & N & A & B & ->)].
    + exists (Some ([] ++ List.concat (map dep_names vs))). split; [apply dep_some; left; auto|]. apply EACH in F. now subst.
    + exists None. split; auto. apply dep_some. right. exists a, b. split; auto. split; auto. split; auto. split; auto. intros v I. destruct (A v I) as [X Y]. apply names_in_spec in Y. auto.
  - intros (o & H & ->). apply dep_some in H as [[H ->]|(a & b & -> & N & _ & A & B & ->)].
    + left. split; auto. exists (map dep_names vs). split; [now apply EACH|reflexivity].
    + right. exists a, b. split; auto. split; auto. split; auto. intros v I. destruct (A v I) as [X Y]. split; auto. now apply names_in_spec.
Qed.

(* ---- tables ---- *)
Lemma single_in o : match o with Some t => mem t singleton_types | None => false end = true <-> In o [Some (L "ddt"); Some (L "host"); Some (L "module")].
Proof.
  destruct o as [t|]; [|split; [discriminate|intros [X|[X|[X|[]]]]; discriminate]]. rewrite mem_in. cbn [singleton_types In]. split.
  - intros [<-|[<-|[<-|[]]]]; auto. - intros [[= <-]|[[= <-]|[[= <-]|[]]]]; auto.
Qed.
Lemma parse_table_spec C skip dmod ddts K ls t rest : (forall v, mem v ddts = true <-> K v) ->
  (exists ddts', parse_table C skip dmod ddts ls = Ok (t, ddts', rest)) <->
  exists body, ls = body ++ rest /\ (forall l, In l body -> ~ table_line l) /\ tab_end rest /\ table_means C skip dmod K body t.
Proof.
  intros HK. unfold parse_table. split.
  - intros (d' & X). apply bind_ok in X as ([[[h secs] d1] r1] & T & X). injection X as <- _ <-.
    assert (EX : exists ddts', tab_lines (S (length ls)) C skip dmod true (mkH None None (Some []) None) [] ddts ls = Ok (h, secs, ddts', r1)) by eauto.
    apply (tab_head _ _ _ _ _ HK) in EX as (pre & bs & kvs & E & B & S & (TO & RN & RT & RP & RD) & SB & TE & F & Len); [|lia].
    exists (pre ++ flat bs). rewrite <- app_assoc. split; auto. split.
    { intros l I. apply in_app_iff in I as [I|I]; [apply B, I|]. apply in_flat in I as (x & b & I & J). destruct (SB x b I) as (_ & N1 & N2). destruct J as [->|J]; [auto|apply N2, J]. }
    split; auto. cbn [h_name h_type h_path h_deps] in RN, RT, RP, RD.
    exists pre, bs, kvs. cbn [t_name t_type t_path t_deps t_sections]. split.
    { split; auto. split; [intros l I; apply B, I|]. intros x b I. destruct (SB x b I) as (N0 & _ & N). split; auto. intros l J. apply N, J. }
    split; auto. destruct TO as [TO1 TO2]. split; auto. split; auto.
    split; [apply last_set_spec; rewrite RN; now destruct (lastv (L "name") kvs)|]. split; [apply last_set_spec; rewrite RT; now destruct (lastv (L "type") kvs)|].
    split; [apply last_set_spec; rewrite RP; now destruct (lastv (L "relative_path") kvs)|]. split; [apply dependencies_spec; eauto|]. split; auto.
    intros I. apply Len. unfold single. now apply single_in.
  - intros (body & -> & B & TE & (pre & bs & kvs & (-> & P1 & P2) & S & O1 & O2 & LN & LT & LP & D & F & Len)).
    apply dependencies_spec in D as (o & D & ED). apply last_set_spec in LN, LT, LP. fold (flat bs) in *.
    assert (EX : exists ddts', tab_lines (Datatypes.S (length ((pre ++ flat bs) ++ rest))) C skip dmod true (mkH None None (Some []) None) [] ddts ((pre ++ flat bs) ++ rest) = Ok (mkH (t_name t) (t_type t) o (t_path t), t_sections t, ddts', rest)).
    { apply (tab_head _ _ _ _ _ HK); [lia|]. exists pre, bs, kvs. split; [now rewrite <- app_assoc|]. split; [intros l I; split; [now apply P1|apply B; apply in_app_iff; now left]|]. split; auto. split.
      - split; [split; auto|]. cbn [h_name h_type h_path h_deps]. rewrite LN, LT, LP. split; [now destruct (t_name t)|]. split; [now destruct (t_type t)|]. split; [now destruct (t_path t)|auto].
      - split.
        { intros x b I. destruct (P2 x b I) as [N1 N2]. split; auto. assert (Z : forall l, l = x \/ In l b -> ~ table_line l) by (intros l J; apply B; apply in_app_iff; right; apply in_flat; eauto). split; [apply Z; auto|]. intros l J. auto. }
        split; auto. split; [exact F|]. intros SG. apply Len. apply single_in. exact SG. }
    destruct EX as (d' & EX). eexists. apply bind_ok. eexists. split; [exact EX|]. cbn [h_name h_type h_path h_deps]. f_equal. f_equal. f_equal. destruct t. cbn in *. congruence.
Qed.
Lemma parse_table_known C skip dmod ddts ls t ddts' rest : parse_table C skip dmod ddts ls = Ok (t, ddts', rest) ->
  forall v, mem v ddts' = true <-> mem v ddts = true \/ (t_type t = Some (L "ddt") /\ t_name t = Some v).
Proof.
  intros X v. pose proof X as Y. unfold parse_table in X. apply bind_ok in X as ([[[h secs] d1] r1] & T & X). injection X as <- <- <-. cbn [t_type t_name].
  pose proof (tab_known _ _ _ (fun v => mem v ddts = true) _ _ _ _ _ _ _ _ _ _ T) as (new & E & KA). cbn in E. subst new.
  assert (KD : forall v, mem v ddts = true <-> (fun v => mem v ddts = true) v) by tauto.
  assert (EX : exists ddts', tab_lines (S (length ls)) C skip dmod true (mkH None None (Some []) None) [] ddts ls = Ok (h, secs, ddts', r1)) by eauto.
  apply (tab_head _ _ _ _ _ KD) in EX as (pre & bs & kvs & _ & _ & _ & _ & _ & _ & F & _); [|lia].
  assert (SEC : (exists s, In s secs /\ s_type s = L "ddt" /\ s_title s = v) -> h_type h = Some (L "ddt") /\ h_name h = Some v).
  { intros (s & I & E1 & E2). clear -F I E1 E2. induction F as [|hb s' bs secs M F IH]; [destruct I|]. destruct I as [->|I]; [|auto].
    destruct (section_type _ _ _ _ _ _ _ _ M) as [A B]. rewrite A, E1. split; auto. rewrite (B E1). congruence. }
  change ["d"%char; "d"%char; "t"%char] with (L "ddt"). destruct (opt_is (h_type h) (L "ddt")) eqn:Q.
  - apply opt_is_spec in Q. rewrite mem_in, in_app_iff, <- mem_in, (KA v). split.
    + intros [[H|H]|H]; auto. right. split; auto. destruct (h_name h); [destruct H as [->|[]]; auto|destruct H].
    + intros [H|[_ H]]; auto. right. rewrite H. now left.
  - rewrite (KA v). split; [intros [H|H]; auto|]. intros [H|[H _]]; auto. assert (opt_is (h_type h) (L "ddt") = true) by now apply opt_is_spec. congruence.
Qed.

(* ---- files ---- *)
Lemma opt_eqb_eq a b : opt_eqb a b = true <-> a = b.
Proof. destruct a, b; cbn; try (split; congruence). rewrite str_eqb_eq. split; congruence. Qed.
Lemma NoDup_snoc {A} (l : list A) x : NoDup (l ++ [x]) <-> NoDup l /\ ~ In x l.
Proof.
  split.
  - intros H. apply NoDup_remove in H. rewrite app_nil_r in H. exact H.
  - intros [H N]. apply NoDup_Add with (a := x) (l := l); [|split; auto]. rewrite <- (app_nil_r l) at 1. apply Add_app.
Qed.
Lemma file_lines_spec C skip dmod : forall fuel K ddts ts ls ts', (forall v, mem v ddts = true <-> K v) -> length ls < fuel -> NoDup (map t_name ts) ->
  file_lines fuel C skip dmod ddts ts ls = Ok ts' <->
  exists pre bs new, ls = pre ++ flat bs /\ (forall l, In l pre -> ~ table_line l /\ blank_line l) /\
    (forall h b, In (h, b) bs -> table_line h /\ forall l, In l b -> ~ table_line l) /\
    tables_mean C skip dmod K bs new /\ ts' = ts ++ new /\ NoDup (map t_name ts').
Proof.
  induction fuel as [|f IH]; intros K ddts ts ls ts' HK LF ND; [lia|]. cbn [file_lines]. destruct ls as [|l r].
  - split.
    + intros [= <-]. exists [], [], []. split; auto. split; [intros ? []|]. split; [intros ? ? []|]. split; [constructor|]. split; [now rewrite app_nil_r|auto].
    + intros (pre & bs & new & E & _ & _ & M & -> & _). symmetry in E. apply app_eq_nil in E as [_ E]. destruct bs as [|[h b] bs]; [|discriminate]. inversion M. now rewrite app_nil_r.
  - cbn [length] in LF. destruct (table_start l) eqn:TS.
    + apply table_start_spec in TS. split.
      * intros X. apply bind_ok in X as ([[t d1] rest] & P & X). pose proof (parse_table_known _ _ _ _ _ _ _ _ P) as KN.
        assert (EX : exists ddts', parse_table C skip dmod ddts r = Ok (t, ddts', rest)) by eauto.
        apply (parse_table_spec _ _ _ _ _ _ _ _ HK) in EX as (body & -> & B & TE & M).
        destruct (existsb (opt_eqb (t_name t)) (map t_name ts)) eqn:DU; [discriminate|].
        assert (NI : ~ In (t_name t) (map t_name ts)).
        { intros I. assert (existsb (opt_eqb (t_name t)) (map t_name ts) = true); [|congruence]. apply existsb_exists. exists (t_name t). split; auto. now apply opt_eqb_eq. }
        rewrite app_length in LF.
        apply (IH (fun v => K v \/ (t_type t = Some (L "ddt") /\ t_name t = Some v))) in X as (pre & bs & new & -> & Bp & Bb & M' & -> & ND'); [| |lia|rewrite map_app; cbn; now apply NoDup_snoc].
        -- destruct pre as [|x pre]; [|exfalso; cbn in TE; now destruct (Bp x (or_introl eq_refl))].
           exists [], ((l, body) :: bs), (t :: new). split; auto. split; [intros ? []|]. split; [intros h b [[= <- <-]|I]; [auto|now apply Bb]|]. split; [now constructor|].
           split; [now rewrite <- app_assoc|exact ND'].
        -- intros v. destruct (opt_is (t_type t) (L "ddt")) eqn:Q.
           ++ apply opt_is_spec in Q. rewrite mem_in, in_app_iff, <- mem_in, KN, HK. split; [|tauto]. intros [[HH|HH]|HH]; auto. right. split; auto. destruct (t_name t); [destruct HH as [->|[]]; auto|destruct HH].
           ++ rewrite KN, HK. tauto.
      * intros (pre & bs & new & E & Bp & Bb & M & -> & ND'). destruct pre as [|x pre]; [|injection E as <- _; now destruct (Bp l (or_introl eq_refl))].
        destruct bs as [|[h b] bs]; [discriminate|]. cbn [app] in E. rewrite flat_cons in E. injection E as <- E. inversion M as [|? ? ? ? t new' MT M']; subst.
        assert (TE : tab_end (flat bs)) by (destruct bs as [|[h' b'] bs]; [exact I|cbn; apply (Bb h' b'); right; now left]).
        assert (EX : exists ddts', parse_table C skip dmod ddts (b ++ flat bs) = Ok (t, ddts', flat bs)).
        { apply (parse_table_spec _ _ _ _ _ _ _ _ HK). exists b. split; auto. split; [apply (Bb l b); now left|auto]. }
        destruct EX as (d1 & EX). apply bind_ok. exists (t, d1, flat bs). split; auto. pose proof (parse_table_known _ _ _ _ _ _ _ _ EX) as KN.
        assert (NI : ~ In (t_name t) (map t_name ts)).
        { rewrite map_app in ND'. cbn in ND'. intros I. apply NoDup_remove_2 in ND'. apply ND'. apply in_app_iff. now left. }
        assert (existsb (opt_eqb (t_name t)) (map t_name ts) = false) as ->.
        { destruct (existsb (opt_eqb (t_name t)) (map t_name ts)) eqn:DU; auto. apply existsb_exists in DU as (x & I & E). apply opt_eqb_eq in E. subst x. contradiction. }
        rewrite app_length in LF. apply (IH (fun v => K v \/ (t_type t = Some (L "ddt") /\ t_name t = Some v))).
        -- intros v. destruct (opt_is (t_type t) (L "ddt")) eqn:Q.
           ++ apply opt_is_spec in Q. rewrite mem_in, in_app_iff, <- mem_in, KN, HK. split; [|tauto]. intros [[HH|HH]|HH]; auto. right. split; auto. destruct (t_name t); [destruct HH as [->|[]]; auto|destruct HH].
           ++ rewrite KN, HK. tauto.
        -- lia.
        -- rewrite map_app. cbn. now apply NoDup_snoc.
        -- exists [], bs, new'. split; auto. split; [intros ? []|]. split; [intros h' b' I; apply Bb; now right|]. split; auto. split; [now rewrite <- app_assoc|exact ND'].
    + apply table_start_false in TS. destruct (blank_metadata_line l) eqn:BL.
      * apply blank_spec in BL. rewrite (IH K ddts ts r ts' HK) by (auto; lia). split.
        -- intros (pre & bs & new & -> & Bp & R). exists (l :: pre), bs, new. split; auto. split; [intros x [<-|I]; auto|auto].
        -- intros (pre & bs & new & E & Bp & Bb & R). destruct pre as [|x pre].
           ++ destruct bs as [|[h b] bs]; [discriminate|]. cbn [app] in E. rewrite flat_cons in E. injection E as <- E. destruct (Bb l b (or_introl eq_refl)). contradiction.
           ++ injection E as <- E. exists pre, bs, new. split; auto. split; [intros y Y; apply Bp; now right|auto].
      * apply blank_false in BL. split; [discriminate|]. intros (pre & bs & new & E & Bp & Bb & R). destruct pre as [|x pre].
        -- destruct bs as [|[h b] bs]; [discriminate|]. cbn [app] in E. rewrite flat_cons in E. injection E as <- E. destruct (Bb l b (or_introl eq_refl)). contradiction.
        -- injection E as <- E. destruct (Bp l (or_introl eq_refl)). contradiction.
Qed.
