(* StaticProofs.v: lemmas about the generated static caps. *)
From Verif Require Import PyStr StaticModel StaticSpec.
From Coq Require Import ZArith Lia.
Open Scope nat_scope.
Open Scope list_scope.

Lemma stage_eqb_eq a b : stage_eqb a b = true <-> a = b.
Proof. destruct a, b; cbn; split; congruence. Qed.
Lemma stage_dec (a b : stage) : {a = b} + {a <> b}. Proof. decide equality. Qed.

(* ---- names ---- *)
Lemma rtrim_app c n : rtrim (c ++ List.repeat " "%char n) = rtrim c.
Proof.
  unfold rtrim. f_equal. rewrite rev_app_distr.
  assert (R : rev (List.repeat " "%char n) = List.repeat " "%char n).
  { induction n; cbn; [reflexivity|]. rewrite IHn. clear.
    induction n; cbn; [reflexivity|]. now rewrite IHn at 1. }
  rewrite R. clear R. induction n; cbn; [reflexivity|apply IHn].
Qed.
Lemma rtrim_split x : exists n, x = rtrim x ++ List.repeat " "%char n.
Proof.
  unfold rtrim.
  assert (H : forall l, exists n, l = List.repeat " "%char n ++ dropwhile (Ascii.eqb " ") l).
  { induction l as [|a l [n IH]]; [exists 0; reflexivity|]. cbn [dropwhile].
    destruct (Ascii.eqb " " a) eqn:E.
    - apply Ascii.eqb_eq in E. subst a. exists (S n). cbn. now rewrite <- IH.
    - exists 0. reflexivity. }
  destruct (H (rev x)) as [n E]. exists n.
  assert (R : rev (List.repeat " "%char n) = List.repeat " "%char n).
  { clear. induction n; cbn; [reflexivity|]. rewrite IHn. clear.
    induction n; cbn; [reflexivity|]. now rewrite IHn at 1. }
  rewrite <- R. rewrite <- rev_app_distr. rewrite <- E. now rewrite rev_involutive.
Qed.
Lemma f_eq_spec a b : f_eq a b = true <-> same_name a b.
Proof.
  unfold f_eq. rewrite str_eqb_eq. split.
  - intros H. destruct (rtrim_split a) as [m Ea]. destruct (rtrim_split b) as [n Eb].
    exists (rtrim a), m, n. split; [exact Ea|]. now rewrite H.
  - intros (c & m & n & -> & ->). now rewrite !rtrim_app.
Qed.
Lemma f_eq_false a b : f_eq a b = false <-> ~ same_name a b.
Proof. rewrite <- f_eq_spec. destruct (f_eq a b); split; congruence. Qed.
Lemma in_stage_spec s g : in_stage s g = true <-> exists_in s g.
Proof.
  unfold in_stage, exists_in. destruct (g_kind g); [| |]; rewrite ?stage_eqb_eq; intuition congruence.
Qed.

(* ---- has_args ---- *)
Lemma has_args_spec has s g : has_args has s g = true <-> active_in has s g.
Proof.
  unfold has_args, active_in. rewrite existsb_exists. split.
  - intros (c & Hc & E). apply existsb_exists in E. destruct E as (n & Hn & E). now exists c, n.
  - intros (c & n & Hc & Hn & E). exists c. split; [exact Hc|]. apply existsb_exists. now exists n.
Qed.
Lemma called_map has s i k x ns :
  map (fun n => ECall n s i k x) (called has s ns) =
  flat_map (fun n => if has n s then [ECall n s i k x] else []) ns.
Proof.
  unfold called. induction ns as [|n ns IH]; cbn; [reflexivity|]. destruct (has n s); cbn; now rewrite IH.
Qed.

(* ---- all_ok ---- *)
Section Ok.
Variable behaves : list event -> str -> stage -> Z -> Z * str.
Lemma all_ok_app before a b :
  all_ok behaves before (a ++ b) <-> all_ok behaves before a /\ all_ok behaves (before ++ a) b.
Proof.
  revert before; induction a as [|e a IH]; intros before; cbn.
  - rewrite app_nil_r. tauto.
  - rewrite IH. rewrite <- app_assoc. cbn. tauto.
Qed.

(* an outcome that performs the calls [evs]: all of them, or up to the first failure *)
Definition performs (evs : list event) (st : state) (o : outcome) : Prop :=
  st_init (fst o) = st_init st /\
  match snd o with
  | None => st_log (fst o) = st_log st ++ evs /\ all_ok behaves (st_log st) evs
  | Some e => exists p x q, evs = p ++ x :: q /\ all_ok behaves (st_log st) p /\
                code behaves (st_log st ++ p) x = e /\ e <> 0%Z /\
                st_log (fst o) = st_log st ++ p ++ [x] /\ st_flag (fst o) = e
  end.
Lemma performs_nil st st' : st_init st' = st_init st -> st_log st' = st_log st -> performs [] st (st', None).
Proof. intros H1 H2. split; [exact H1|]. cbn. rewrite app_nil_r. now split. Qed.
Lemma performs_seq a b st o (f : state -> outcome) :
  performs a st o -> (forall st1, fst o = st1 -> snd o = None -> performs b st1 (f st1)) ->
  performs (a ++ b) st (match o with (st1, Some z) => (st1, Some z) | (st1, None) => f st1 end).
Proof.
  destruct o as [st1 [e|]]; intros [H1 H2] H.
  - split; [exact H1|]. cbn in H2 |- *. destruct H2 as (p & x & q & E & H2).
    exists p, x, (q ++ b). split; [subst a; now rewrite <- app_assoc|exact H2].
  - cbn in H1, H2. destruct H2 as [H2 H3]. destruct (H st1 eq_refl eq_refl) as [H4 H5].
    destruct (f st1) as [st2 [e|]]; cbn in H4, H5 |- *; (split; [cbn; congruence|]); cbn.
    + destruct H5 as (p & x & q & E & A & B & C & D & F).
      exists (a ++ p), x, q. rewrite H2 in *. rewrite <- !app_assoc in *.
      split; [now rewrite E|]. split; [apply all_ok_app; now split|]. split; [exact B|].
      split; [exact C|]. now split.
    + destruct H5 as [H5 H6]. rewrite H2 in *. rewrite <- app_assoc in H5.
      split; [exact H5|]. apply all_ok_app. now split.
Qed.

Lemma exec_call_performs s i n st :
  performs [ECall n s i (st_cnt st) (st_ext st)] st (exec_call behaves s i n st) /\
  (snd (exec_call behaves s i n st) = None ->
     st_cnt (fst (exec_call behaves s i n st)) = st_cnt st /\ st_ext (fst (exec_call behaves s i n st)) = st_ext st).
Proof.
  unfold exec_call. destruct (behaves (st_log st) n s i) as [e m] eqn:E.
  assert (C : code behaves (st_log st) (ECall n s i (st_cnt st) (st_ext st)) = e) by (cbn; now rewrite E).
  destruct (e =? 0)%Z eqn:Z0; (split; [split; cbn; [reflexivity|]|cbn; now split]).
  - apply Z.eqb_eq in Z0. split; [reflexivity|]. split; [transitivity e; [exact C|exact Z0]|exact I].
  - apply Z.eqb_neq in Z0. exists [], (ECall n s i (st_cnt st) (st_ext st)), []. cbn [app].
    rewrite app_nil_r. repeat split; assumption.
Qed.
Lemma exec_calls_performs s i ns st :
  performs (map (fun n => ECall n s i (st_cnt st) (st_ext st)) ns) st (exec_calls behaves s i ns st) /\
  (snd (exec_calls behaves s i ns st) = None ->
     st_cnt (fst (exec_calls behaves s i ns st)) = st_cnt st /\ st_ext (fst (exec_calls behaves s i ns st)) = st_ext st).
Proof.
  revert st; induction ns as [|n ns IH]; intros st; cbn [exec_calls map].
  - split; [now apply performs_nil|now split].
  - destruct (exec_call_performs s i n st) as [H1 H2].
    split.
    + change (?x :: map ?g ns) with ([x] ++ map g ns).
      apply (performs_seq _ _ _ _ (fun st1 => exec_calls behaves s i ns st1)); [exact H1|]. intros st1 E1 E2. destruct (H2 E2) as [H3 H4].
      rewrite E1 in H3, H4. rewrite <- H3, <- H4. apply IH.
    + destruct (exec_call behaves s i n st) as [st1 [e|]]; cbn; [discriminate|]. intros E.
      cbn in H2. destruct (H2 eq_refl) as [H3 H4]. rewrite <- H3, <- H4. now apply IH.
Qed.
Lemma exec_loop_performs s i ns x k n st : st_ext st = x ->
  performs (flat_map (fun c => map (fun m => ECall m s i c x) ns) (upto k n)) st (exec_loop behaves s i ns k n st) /\
  (snd (exec_loop behaves s i ns k n st) = None -> st_ext (fst (exec_loop behaves s i ns k n st)) = x).
Proof.
  revert k st; induction n as [|n IH]; intros k st Ex; cbn [upto exec_loop flat_map].
  - split; [now apply performs_nil|intros _; exact Ex].
  - destruct (exec_calls_performs s i ns (set_cnt k st)) as [H1 H2]. cbn [st_cnt st_ext set_cnt] in H1, H2.
    rewrite Ex in H1, H2.
    split.
    + apply (performs_seq _ _ _ _ (fun st1 => exec_loop behaves s i ns (k + 1) n st1)).
      * exact H1.
      * intros st1 E1 E2. destruct (H2 E2) as [_ H4]. rewrite E1 in H4. now apply IH.
    + destruct (exec_calls behaves s i ns (set_cnt k st)) as [st1 [e|]]; cbn; [discriminate|]. intros E.
      cbn in H2. destruct (H2 eq_refl) as [_ H4]. now apply IH.
Qed.
End Ok.

(* the counter values the generated code uses *)
Definition gen_passes (s : stage) (loop : Z) : list Z :=
  if (1 <? loop)%Z && stage_eqb s Run then upto 1 (Z.to_nat loop) else [1%Z].
Lemma gen_passes_spec s loop : s <> Run \/ (1 <= loop)%Z -> gen_passes s loop = passes s loop.
Proof.
  unfold gen_passes, passes. destruct (stage_eqb s Run) eqn:E.
  - apply stage_eqb_eq in E. intros [H|H]; [contradiction|].
    destruct (1 <? loop)%Z eqn:L1; [reflexivity|]. apply Z.ltb_ge in L1. now replace loop with 1%Z by lia.
  - intros _. now rewrite andb_false_r.
Qed.
Definition gen_events (has : str -> stage -> bool) (s : stage) (i : Z) (cs : list subcycle) : list event :=
  flat_map (fun c =>
    flat_map (fun k =>
      flat_map (fun n => if has n s then [ECall n s i k (extent s (sc_loop c))] else []) (sc_schemes c))
      (gen_passes s (sc_loop c))) cs.
Lemma gen_events_owed has s i g :
  (s = Run -> forall c, In c (g_subs g) -> (1 <= sc_loop c)%Z) -> gen_events has s i (g_subs g) = owed has s i g.
Proof.
  unfold gen_events, owed. generalize (g_subs g). intros cs H. induction cs as [|c cs IH]; [reflexivity|].
  cbn [flat_map]. rewrite IH; [|intros E d Hd; apply H; [exact E|now right]].
  rewrite gen_passes_spec; [reflexivity|]. destruct (stage_dec s Run) as [E|E]; [right|now left].
  apply H; [exact E|now left].
Qed.

Section Grp.
Variable has : str -> stage -> bool.
Variable behaves : list event -> str -> stage -> Z -> Z * str.

Lemma exec_app sn gn s i a b st :
  exec behaves sn gn s i (a ++ b) st =
  match exec behaves sn gn s i a st with (st1, Some z) => (st1, Some z) | (st1, None) => exec behaves sn gn s i b st1 end.
Proof.
  revert st; induction a as [|c a IH]; intros st; cbn; [reflexivity|].
  destruct (exec_stmt behaves sn gn s i c st) as [st1 [e|]]; [reflexivity|apply IH].
Qed.
Lemma exec_map_calls sn gn s i ns st :
  exec behaves sn gn s i (map CallScheme ns) st = exec_calls behaves s i ns st.
Proof.
  revert st; induction ns as [|n ns IH]; intros st; cbn; [reflexivity|].
  destruct (exec_call behaves s i n st) as [st1 [e|]]; [reflexivity|apply IH].
Qed.
Lemma subcycle_performs sn gn s i c st :
  performs behaves (gen_events has s i [c]) st (exec behaves sn gn s i (gen_subcycle has s c) st).
Proof.
  unfold gen_events. cbn [flat_map]. rewrite app_nil_r. unfold gen_subcycle.
  assert (M : forall k, flat_map (fun n => if has n s then [ECall n s i k (extent s (sc_loop c))] else []) (sc_schemes c)
              = map (fun n => ECall n s i k (extent s (sc_loop c))) (called has s (sc_schemes c)))
    by (intros k; symmetry; apply called_map).
  destruct (called has s (sc_schemes c)) as [|n ns] eqn:E.
  - cbn [map] in M. replace (flat_map _ (gen_passes s (sc_loop c))) with (@nil event); [now apply performs_nil|].
    symmetry. induction (gen_passes s (sc_loop c)) as [|k ks IH]; cbn; [reflexivity|]. now rewrite M, IH.
  - rewrite <- E in *.
    rewrite (flat_map_ext _ _ M).
    replace (if stage_eqb s Run then sc_loop c else 1%Z) with (extent s (sc_loop c)) by reflexivity.
    set (x := extent s (sc_loop c)). cbn [exec exec_stmt]. unfold gen_passes.
    destruct ((1 <? sc_loop c)%Z && stage_eqb s Run); cbn [exec exec_stmt].
    + destruct (exec_loop_performs behaves s i (called has s (sc_schemes c)) x 1 (Z.to_nat (sc_loop c)) (set_ext x st) eq_refl) as [H _].
      destruct (exec_loop _ _ _ _ _ _ _) as [st1 [e|]]; exact H.
    + rewrite exec_map_calls. cbn [flat_map]. rewrite app_nil_r.
      exact (proj1 (exec_calls_performs behaves s i (called has s (sc_schemes c)) (set_cnt 1 (set_ext x st)))).
Qed.
Lemma body_performs sn gn s i cs st :
  performs behaves (gen_events has s i cs) st (exec behaves sn gn s i (flat_map (gen_subcycle has s) cs) st).
Proof.
  revert st; induction cs as [|c cs IH]; intros st; [now apply performs_nil|].
  cbn [flat_map]. rewrite exec_app.
  change (c :: cs) with ([c] ++ cs). unfold gen_events. rewrite flat_map_app.
  apply (performs_seq _ _ _ _ _ (fun st1 => exec behaves sn gn s i (flat_map (gen_subcycle has s) cs) st1)); [apply subcycle_performs|]. intros st1 _ _. apply IH.
Qed.

(* the guard at the start of a group function lets it through *)
Definition passes_guard (s : stage) (g : group) (r : bool) : bool :=
  match s with Init => negb r | _ => negb (has_args has s g) || r end.
Definition guard_state (s : stage) (g : group) (st : state) : state :=
  match s with
  | Init | Final => st
  | _ => set_err 1 (g_name g ++ L "_" ++ stage_name s ++ L " called before " ++ g_name g ++ L "_init") st
  end.
Definition new_init (sn : str) (s : stage) (i : Z) (g : group) (f : str -> str -> Z -> bool) : str -> str -> Z -> bool :=
  match s with
  | Init => upd_init f sn (g_name g) (fun j b => if (j =? i)%Z then true else b)
  | Final => upd_init f sn (g_name g) (fun _ _ => false)
  | _ => f
  end.
Lemma group_fn_refused sn s i g st :
  passes_guard s g (st_init st sn (g_name g) i) = false -> group_fn has behaves sn s i g st = (guard_state s g st, 0%Z).
Proof.
  unfold group_fn, gen_group, passes_guard, test_block. intros H.
  destruct s; cbn [stage_eqb] in H.
  all: try (apply orb_false_iff in H; destruct H as [H1 H2]; apply negb_false_iff in H1; rewrite H1).
  all: cbn [app exec exec_stmt].
  all: try rewrite H2. all: try (apply negb_false_iff in H; rewrite H). all: reflexivity.
Qed.
Lemma exec_set sn gn s i st :
  exists st', exec behaves sn gn s i (set_block s) st = (st', None) /\ st_log st' = st_log st /\
    st_flag st' = st_flag st /\ st_msg st' = st_msg st /\
    st_init st' = match s with
                  | Init => upd_init (st_init st) sn gn (fun j b => if (j =? i)%Z then true else b)
                  | Final => upd_init (st_init st) sn gn (fun _ _ => false)
                  | _ => st_init st end.
Proof. destruct s; cbn; eexists; repeat split. Qed.
Lemma group_fn_admitted sn s i g st :
  passes_guard s g (st_init st sn (g_name g) i) = true ->
  let evs := gen_events has s i (g_subs g) in
  let '(st', e) := group_fn has behaves sn s i g st in
  (e = 0%Z /\ all_ok behaves (st_log st) evs /\ st_log st' = st_log st ++ evs ++ [EDone sn (g_name g) s i] /\
     st_init st' = new_init sn s i g (st_init st)) \/
  (e <> 0%Z /\ st_flag st' = e /\ st_init st' = st_init st /\
     exists p x q, evs = p ++ x :: q /\ all_ok behaves (st_log st) p /\ code behaves (st_log st ++ p) x = e /\
       st_log st' = st_log st ++ p ++ [x]).
Proof.
  intros H evs. unfold group_fn, gen_group.
  assert (T : exec behaves sn (g_name g) s i (test_block has s g) st = (st, None)).
  { revert H. unfold passes_guard, test_block.
    destruct (has_args has s g); destruct (st_init st sn (g_name g) i) eqn:EI; destruct s; cbn; rewrite ?EI; congruence. }
  rewrite exec_app, T, exec_app.
  pose proof (body_performs sn (g_name g) s i (g_subs g) st) as B. fold evs in B.
  destruct (exec behaves sn (g_name g) s i (flat_map (gen_subcycle has s) (g_subs g)) st) as [st1 [e|]].
  - destruct B as [B1 B2]. cbn in B1, B2. destruct B2 as (p & x & q & E & A & C & D & F & G).
    right. split; [exact D|]. split; [exact G|]. split; [exact B1|]. now exists p, x, q.
  - destruct B as [B1 B2]. cbn in B1, B2. destruct B2 as [B2 B3].
    destruct (exec_set sn (g_name g) s i st1) as (st2 & E & L1 & _ & _ & I). rewrite E. left.
    split; [reflexivity|]. split; [exact B3|]. cbn [log_event st_log st_init].
    split; [rewrite L1, B2; now rewrite <- app_assoc|]. rewrite I, B1. destruct s; reflexivity.
Qed.
End Grp.

(* ---- initialised ---- *)
Definition is_done (e : event) : bool := match e with EDone _ _ _ _ => true | _ => false end.
Lemma initialised_app log evs sn gn i :
  (forall e, In e evs -> is_done e = false) -> initialised (log ++ evs) sn gn i <-> initialised log sn gn i.
Proof.
  intros H. split.
  - revert H. induction evs as [|e evs IH] using rev_ind; intros H; [now rewrite app_nil_r|].
    intros (l1 & l2 & E & N). apply IH; [intros x Hx; apply H; apply in_or_app; now left|].
    rewrite app_assoc in E.
    destruct l2 as [|y l2] using rev_ind.
    + exfalso. apply app_inj_tail in E. destruct E as [_ E].
      assert (F : is_done e = false) by (apply H, in_or_app; right; now left). rewrite E in F. discriminate.
    + clear IHl2. change (l1 ++ ?x :: l2 ++ [y]) with (l1 ++ (x :: l2) ++ [y]) in E. rewrite app_assoc in E.
      apply app_inj_tail in E. destruct E as [E _]. exists l1, l2. split; [exact E|].
      intros j Hj. apply (N j). apply in_or_app. now left.
  - intros (l1 & l2 & E & N). exists l1, (l2 ++ evs). split; [rewrite E; now rewrite <- app_assoc|].
    intros j Hj. apply in_app_or in Hj. destruct Hj as [Hj|Hj]; [now apply (N j)|].
    apply H in Hj. discriminate.
Qed.
Lemma initialised_done log a b s j sn gn i :
  initialised (log ++ [EDone a b s j]) sn gn i <->
  if str_eqb sn a && str_eqb gn b
  then match s with Init => i = j \/ initialised log sn gn i | Final => False | _ => initialised log sn gn i end
  else initialised log sn gn i.
Proof.
  assert (K : initialised log sn gn i -> (a, b, s) <> (sn, gn, Final) -> initialised (log ++ [EDone a b s j]) sn gn i).
  { intros (l1 & l2 & E & N) D. exists l1, (l2 ++ [EDone a b s j]). split; [rewrite E; now rewrite <- app_assoc|].
    intros k Hk. apply in_app_or in Hk. destruct Hk as [Hk|[Hk|[]]]; [now apply (N k)|]. congruence. }
  assert (B : initialised (log ++ [EDone a b s j]) sn gn i ->
              (a, b, s) <> (sn, gn, Final) /\ ((a, b, s, j) = (sn, gn, Init, i) \/ initialised log sn gn i)).
  { intros (l1 & l2 & E & N). destruct l2 as [|y l2] using rev_ind.
    - apply app_inj_tail in E. destruct E as [_ E]. inversion E; subst. split; [congruence|now left].
    - clear IHl2. change (l1 ++ ?x :: l2 ++ [y]) with (l1 ++ (x :: l2) ++ [y]) in E. rewrite app_assoc in E.
      apply app_inj_tail in E. destruct E as [E E2]. subst y. split.
      + intros F. apply (N j). apply in_or_app. right. left. congruence.
      + right. exists l1, l2. split; [exact E|]. intros k Hk. apply (N k). apply in_or_app. now left. }
  destruct (str_eqb sn a && str_eqb gn b) eqn:EQ.
  - apply andb_true_iff in EQ. destruct EQ as [E1 E2]. apply str_eqb_eq in E1, E2. subst a b.
    split.
    + intros H. destruct (B H) as [H1 H2]. destruct s; try (destruct H2 as [H2|H2]; [congruence|exact H2]).
      * destruct H2 as [H2|H2]; [left; congruence|now right].
      * now apply H1.
    + destruct s; intros H; try (apply K; [exact H|congruence]); try contradiction.
      destruct H as [H|H]; [|apply K; [exact H|congruence]].
      subst j. exists log, []. split; [reflexivity|]. intros k [].
  - apply andb_false_iff in EQ. assert (D : (a, b) <> (sn, gn)).
    { intros F. injection F as -> ->. rewrite !str_eqb_refl in EQ. destruct EQ; discriminate. }
    split.
    + intros H. destruct (B H) as [_ [H2|H2]]; [exfalso; apply D; congruence|exact H2].
    + intros H. apply K; [exact H|]. intros F. apply D. congruence.
Qed.

(* ---- the "initialized" flags agree with the log ---- *)
Definition inv (st : state) : Prop := forall sn gn i, st_init st sn gn i = true <-> initialised (st_log st) sn gn i.
Lemma gen_events_call has s i cs e : In e (gen_events has s i cs) ->
  exists n k x c, e = ECall n s i k x /\ In c cs /\ In n (sc_schemes c) /\ has n s = true.
Proof.
  unfold gen_events. intros H. apply in_flat_map in H. destruct H as (c & Hc & H).
  apply in_flat_map in H. destruct H as (k & Hk & H). apply in_flat_map in H. destruct H as (n & Hn & H).
  destruct (has n s) eqn:E; [|destruct H]. destruct H as [H|[]]. subst e.
  exists n, k, (extent s (sc_loop c)), c. auto.
Qed.
Section Inv.
Variable has : str -> stage -> bool.
Variable behaves : list event -> str -> stage -> Z -> Z * str.
Lemma group_fn_inv sn s i g st : inv st -> inv (fst (group_fn has behaves sn s i g st)).
Proof.
  intros I. destruct (passes_guard has s g (st_init st sn (g_name g) i)) eqn:G.
  - pose proof (group_fn_admitted has behaves sn s i g st G) as H.
    destruct (group_fn has behaves sn s i g st) as [st' e]. cbn [fst].
    set (evs := gen_events has s i (g_subs g)) in *.
    assert (ND : forall l, incl l evs -> forall x, In x l -> is_done x = false).
    { intros l Hl x Hx. apply Hl in Hx. apply gen_events_call in Hx. destruct Hx as (n & k & y & c & -> & _). reflexivity. }
    destruct H as [(_ & _ & L1 & J)|(_ & _ & J & p & x & q & E & _ & _ & L1)].
    + intros a b j. rewrite L1, app_assoc. rewrite initialised_done.
      assert (A : initialised (st_log st ++ evs) a b j <-> initialised (st_log st) a b j)
        by (apply initialised_app, ND, incl_refl).
      rewrite J. specialize (I a b j). revert I A. generalize (initialised (st_log st ++ evs) a b j).
      generalize (initialised (st_log st) a b j). intros P Q I A.
      unfold new_init, upd_init. destruct s; destruct (str_eqb a sn && str_eqb b (g_name g)); try (rewrite A; exact I).
      * destruct (j =? i)%Z eqn:EJ; [apply Z.eqb_eq in EJ|apply Z.eqb_neq in EJ].
        -- split; [intros _; now left|reflexivity].
        -- rewrite I, A. split; [now right|intros [F|F]; [contradiction|exact F]].
      * split; [discriminate|contradiction].
    + intros a b j. rewrite L1, J. rewrite initialised_app; [apply I|]. apply ND.
      rewrite E. intros y Hy. apply in_app_or in Hy. apply in_or_app. destruct Hy as [Hy|[Hy|[]]]; [now left|]. subst y. right. now left.
  - rewrite group_fn_refused by exact G. cbn [fst]. intros a b j. destruct s; apply I.
Qed.
Lemma groups_fn_inv sn s i gs st : inv st -> inv (fst (groups_fn has behaves sn s i gs st)).
Proof.
  revert st; induction gs as [|g gs IH]; intros st I; cbn; [exact I|].
  destruct (in_stage s g); [|now apply IH]. pose proof (group_fn_inv sn s i g st I) as H.
  destruct (group_fn has behaves sn s i g st) as [st1 e]. destruct (e =? 0)%Z; [now apply IH|exact H].
Qed.
Lemma set_err_inv e m st : inv st -> inv (set_err e m st). Proof. intros I a b j. apply I. Qed.
Lemma group_switch_inv sn s i gn gs st : inv st -> inv (fst (group_switch has behaves sn s i gn gs st)).
Proof.
  intros I. induction gs as [|g gs IH]; cbn; [apply set_err_inv, I|].
  destruct (in_stage s g && f_eq gn (g_name g)); [now apply group_fn_inv|exact IH].
Qed.
Lemma suite_switch_inv s i un gn us st : inv st -> inv (fst (suite_switch has behaves s i un gn us st)).
Proof.
  intros I. induction us as [|u us IH]; cbn; [apply set_err_inv, I|].
  destruct (f_eq un (s_name u)); [|exact IH]. destruct gn; [now apply group_switch_inv|now apply groups_fn_inv].
Qed.
Lemma do_call_inv us c st : inv st -> inv (fst (do_call has behaves us c st)).
Proof.
  intros I. unfold do_call, api_call.
  pose proof (suite_switch_inv (c_stage c) (c_inst c) (c_suite c) (c_group c) us st I) as H.
  destruct (suite_switch _ _ _ _ _ _ _ _) as [st1 e]. now apply set_err_inv.
Qed.
Lemma history_inv us cs st : inv st -> inv (history has behaves us cs st).
Proof. revert st; induction cs as [|c cs IH]; intros st I; cbn; [exact I|]. apply IH. now apply do_call_inv. Qed.
Lemma start_inv a b c d : inv (start a b c d).
Proof.
  intros x y i. cbn. split; [discriminate|]. intros (l1 & l2 & E & _). destruct l1; discriminate E.
Qed.

(* ---- dispatch ---- *)
Lemma api_suite us s i un gn u st : selects_suite us un u ->
  suite_switch has behaves s i un gn us st =
  match gn with Some x => group_switch has behaves (s_name u) s i x (s_groups u) st | None => suite_fn has behaves s i u st end.
Proof.
  intros (a & b & -> & Hu & Ha). induction a as [|v a IH]; cbn.
  - apply f_eq_spec in Hu. now rewrite Hu.
  - destruct (f_eq un (s_name v)) eqn:E.
    + exfalso. apply (Ha v); [now left|]. now apply f_eq_spec.
    + apply IH. intros w Hw. apply Ha. now right.
Qed.
Lemma api_group s i u gn g st : selects_group s u gn g ->
  group_switch has behaves (s_name u) s i gn (s_groups u) st = group_fn has behaves (s_name u) s i g st.
Proof.
  intros (a & b & -> & Hn & Hg & Ha). induction a as [|v a IH]; cbn.
  - apply f_eq_spec in Hn. apply in_stage_spec in Hg. now rewrite Hn, Hg.
  - destruct (in_stage s v && f_eq gn (g_name v)) eqn:E.
    + exfalso. apply andb_true_iff in E. destruct E as [E1 E2]. apply (Ha v); [now left| |].
      * now apply in_stage_spec.
      * now apply f_eq_spec.
    + apply IH. intros w Hw. apply Ha. now right.
Qed.
Lemma api_call_group us s i un u gn g st : selects_suite us un u -> selects_group s u gn g ->
  api_call has behaves us s i un (Some gn) st =
  (let '(st1, e) := group_fn has behaves (s_name u) s i g st in (set_err e (st_msg st1) st1, e)).
Proof. intros Hu Hg. unfold api_call. rewrite (api_suite _ _ _ _ _ _ _ Hu). now rewrite (api_group _ _ _ _ _ _ Hg). Qed.
Lemma in_stage_groups_of s u : List.filter (in_stage s) (s_groups u) = groups_of s u.
Proof.
  unfold groups_of. apply filter_ext. intros g. unfold in_stage. destruct (g_kind g), s; reflexivity.
Qed.

Lemma group_fn_done_by s i u g st : let '(st', e) := group_fn has behaves (s_name u) s i g st in
  exists evs, st_log st' = st_log st ++ evs /\ done_by s i u g evs /\
    ((e = 0%Z /\ all_ok behaves (st_log st) evs) \/
     (e <> 0%Z /\ st_flag st' = e /\ exists p x, evs = p ++ [x] /\ all_ok behaves (st_log st) p /\
        code behaves (st_log st ++ p) x = e /\ is_done x = false)).
Proof.
  destruct (passes_guard has s g (st_init st (s_name u) (g_name g) i)) eqn:G.
  - pose proof (group_fn_admitted has behaves (s_name u) s i g st G) as H.
    destruct (group_fn has behaves (s_name u) s i g st) as [st' e].
    assert (C : forall l, incl l (gen_events has s i (g_subs g)) -> done_by s i u g l).
    { intros l Hl. split.
      - intros n s' j k x H1. apply Hl, gen_events_call in H1. destruct H1 as (n' & k' & x' & c & E & Hc & Hn & _).
        injection E as -> -> -> -> ->. repeat split. now exists c.
      - intros a b s' j H1. apply Hl, gen_events_call in H1. destruct H1 as (n' & k' & x' & c & E & _). discriminate. }
    destruct H as [(-> & A & L1 & _)|(E0 & F & _ & p & x & q & E & A & B & L1)].
    + exists (gen_events has s i (g_subs g) ++ [EDone (s_name u) (g_name g) s i]). split; [exact L1|].
      split; [|left; split; [reflexivity|]; apply all_ok_app; split; [exact A|cbn; now split]].
      destruct (C _ (incl_refl _)) as [C1 C2]. split.
      * intros n s' j k x H1. apply in_app_or in H1. destruct H1 as [H1|[H1|[]]]; [now apply (C1 n s' j k x)|discriminate].
      * intros a b s' j H1. apply in_app_or in H1. destruct H1 as [H1|[H1|[]]]; [now apply (C2 a b s' j)|].
        injection H1 as -> -> -> ->. auto.
    + exists (p ++ [x]). split; [exact L1|].
      assert (I2 : incl (p ++ [x]) (gen_events has s i (g_subs g))).
      { rewrite E. intros y Hy. apply in_app_or in Hy. apply in_or_app.
        destruct Hy as [Hy|[Hy|[]]]; [now left|]. subst y. right. now left. }
      split; [now apply C|]. right. split; [exact E0|]. split; [exact F|]. exists p, x. repeat split; try assumption.
      assert (HX : In x (gen_events has s i (g_subs g))) by (apply I2, in_or_app; right; now left).
      apply gen_events_call in HX. destruct HX as (n & k & y & c & -> & _). reflexivity.
  - rewrite group_fn_refused by exact G. exists []. rewrite app_nil_r. split; [destruct s; reflexivity|].
    split; [split; intros; contradiction|]. left. now split.
Qed.
End Inv.
