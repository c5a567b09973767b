(* C170-C172: the full names of the host's variables. *)
From Coq Require Import List Ascii String ZArith Bool Lia Permutation.
From Verif Require Import PyStr Base CheckModel CheckProofs ReqModel ReqProofs ParModel ParProofs ArProofs SzProofs LnModel LnSpec LnProofs.
Import ListNotations.
Open Scope nat_scope. Open Scope list_scope.

(* ---- a host ---- *)
Definition ex_tds : typedefs := [(L "gfs", [(L "gfs", []); (L "state_t", L "data(cdata%blk)%state"); (L "control_t", L "control")])].
Definition v_of (l m : string) (t : option string) := mkN (L l) (L m) (option_map L t) false.
Definition ex_m : meta := [
  (L "air_temperature", v_of "t" "gfs" (Some "state_t"%string));
  (L "water_vapor", v_of "q(:, 1:number_of_levels,index_of_water_vapor)" "gfs" (Some "state_t"%string));
  (L "index_of_water_vapor", v_of "ntqv" "gfs" (Some "control_t"%string));
  (L "number_of_levels", v_of "levs" "gfs" (Some "control_t"%string));
  (L "pi", v_of "con_pi" "gfs" None);
  (L "kind_phys", v_of "kind_phys" "machine" None)].
Lemma nodup_b (l : list str) : (fix nd l := match l with [] => true | x :: r => negb (mem x r) && nd r end) l = true -> NoDup l.
Proof. induction l as [|x r IH]; [constructor|]. intros H. apply andb_prop in H as [A B]. constructor; [|auto]. apply mem_not. now destruct (mem x r). Qed.
Lemma ex_tidy : tidy ex_m /\ tidy_typedefs ex_tds.
Proof.
  split.
  - split; [now apply nodup_b|]. intros s v I. cbn in I.
    repeat (destruct I as [I|I]; [injection I as <- <-; cbn [n_local v_of]; first [left; apply has_char_out; reflexivity|
      right; exists (L "q"), [L ":"; L " 1:number_of_levels"; L "index_of_water_vapor"]; split; [reflexivity|]; split; [discriminate|];
      intros r J; assert (X : forallb (fun r => negb (has_char "," r) && negb (has_char "(" r) && negb (has_char ")" r)) [L ":"; L " 1:number_of_levels"; L "index_of_water_vapor"] = true) by reflexivity;
      rewrite forallb_forall in X; specialize (X r J); apply andb_prop in X as [X X3]; apply andb_prop in X as [X1 X2];
      repeat split; apply has_char_out; [now destruct (has_char "," r)|now destruct (has_char "(" r)|now destruct (has_char ")" r)]]|]).
    destruct I.
  - split; [now apply nodup_b|]. intros m types [I|[]]. injection I as <- <-. now apply nodup_b.
Qed.

(* C170: after the conversion every host variable has its full Fortran name *)
Theorem C170_names fuel tds m m' : tidy m -> tidy_typedefs tds -> tds <> [] -> host_names fuel tds m = Ok m' ->
  map fst m' = map fst m /\
  forall s v, In (s, v) m -> exists v', In (s, v') m' /\ n_module v' = n_module v /\ n_type v' = n_type v /\ exists n, full_name n tds m s (n_local v').
Proof.
  intros TD TT N H. unfold host_names in H. destruct tds as [|t0 tr]; [congruence|]. set (tds := t0 :: tr) in *.
  apply bind_inv in H as (g & G & H). destruct g as [| |m1]; try discriminate. injection H as <-.
  destruct (gather_sound _ _ _ _ TD TT _ _ _ (inv_start tds m TD) G) as (c & E & I). split; [exact E|]. intros s v J.
  apply in_assoc in J as A; [|apply TD]. destruct (I s v A) as (w & B & M & T & _ & _ & DN). exists w. split; [now apply assoc_in|]. split; [exact M|]. split; [exact T|].
  apply DN. rewrite app_nil_r, <- in_rev. apply in_map_iff. exists (s, v). auto.
Qed.
Print Assumptions C170_names.
Example C170_example : match host_names 9 ex_tds ex_m with Ok m => map (fun p => n_local (snd p)) m | Raise _ => [] end =
  [L "data(cdata%blk)%state%t"; L "data(cdata%blk)%state%q(:,1:control%levs,control%ntqv)"; L "control%ntqv"; L "control%levs"; L "con_pi"; L "kind_phys"].
Proof. vm_compute. reflexivity. Qed.
(* a name determines its full name *)
Theorem C170_unique tds m s t u : tidy m -> tidy_typedefs tds -> (exists n, full_name n tds m s t) -> (exists n, full_name n tds m s u) -> t = u.
Proof. intros (ND & _) TT (n & A) (k & B). eapply full_fun; eauto. Qed.
Print Assumptions C170_unique.
Example C170_unique_example : full_name 1 ex_tds ex_m (L "air_temperature") (L "data(cdata%blk)%state%t").
Proof.
  exists (v_of "t" "gfs" (Some "state_t"%string)). split; [now left|]. right. exists (L "data(cdata%blk)%state"), (L "t"). split.
  - eapply C_type; [now left|reflexivity|right; now left].
  - split; [right; split; [discriminate|reflexivity]|]. left. split; [|reflexivity]. intros [X|[]]. discriminate.
Qed.
(* subscripts in the middle of a name: the letter at the end is taken for them *)
Theorem C170_component_refuted : host_names 9 ex_tds [(L "pressure", v_of "levels(1)%p" "gfs" None)] = Raise "KeyError" /\
  exists m, host_names 9 ex_tds [(L "pressure", v_of "levels(1)%p" "gfs" None); (L "p", v_of "q" "gfs" (Some "control_t"%string))] = Ok m /\
    exists v, In (L "pressure", v) m /\ n_local v = L "levels(1)%(control%q)".
Proof. split; [vm_compute; reflexivity|]. eexists. split; [vm_compute; reflexivity|]. eexists. split; [now left|reflexivity]. Qed.
Print Assumptions C170_component_refuted.
(* names are not significant in their letter case, but a subscript in another case is not found *)
Theorem C170_case_refuted : host_names 9 ex_tds [(L "water_vapor", v_of "q(:,Number_of_levels)" "gfs" None); (L "number_of_levels", v_of "levs" "gfs" None)] = Raise "KeyError".
Proof. vm_compute. reflexivity. Qed.
Print Assumptions C170_case_refuted.

(* C171: the order of the variables does not matter *)
Lemma full_perm tds m1 m2 : (forall p, In p m1 -> In p m2) -> forall n s t, full_name n tds m1 s t -> full_name n tds m2 s t.
Proof.
  intros H. induction n as [|n IH]; intros s t F; [destruct F|]. destruct F as (v & I & F). exists v. split; [auto|].
  destruct F as [F|(p & name & C & W & F)]; [now left|right]. exists p, name. split; [exact C|]. split; [exact W|].
  destruct F as [F|(base & refs & ts & A & F & E)]; [now left|right]. exists base, refs, ts. split; [exact A|]. split; [|exact E].
  eapply F2_mono; [|exact F]. intros x y. now apply index_mono.
Qed.
Lemma gather_single tds m0 f keys : tidy m0 -> tidy_typedefs tds -> forall done x m, invariant tds m0 done x -> gather f tds keys x = Ok (Three m) ->
  forall k v, In k keys -> assoc m0 k = Some v -> n_multiple v = false.
Proof.
  intros TD TT. induction keys as [|j keys IH]; intros done x m I E k v K A0; [destruct K|].
  cbn [gather] in E. destruct (assoc (fst x) j) as [w|] eqn:A; [|discriminate]. destruct (n_multiple w) eqn:M; [discriminate|].
  apply bind_inv in E as ([[t|] y] & C & E); [|discriminate]. destruct (assoc (fst y) j) as [w'|] eqn:B; [|discriminate].
  destruct (convert_sound _ _ TD TT _ _ _ _ _ _ I C) as (F & J). rewrite (set_eq _ _ _ _ _ _ _ TD J B) in E. destruct K as [->|K].
  - destruct (proj2 I _ _ A0) as (u & A' & _ & _ & U & _). congruence.
  - eapply IH; eauto.
Qed.
Theorem C172_exactly tds m : tidy m -> tidy_typedefs tds -> tds <> [] ->
  ((exists fuel m', host_names fuel tds m = Ok m') <-> forall s v, In (s, v) m -> n_multiple v = false /\ exists n t, full_name n tds m s t).
Proof.
  intros TD TT N. split.
  - intros (fuel & m' & H) s v I. split.
    + unfold host_names in H. destruct tds as [|t0 tr]; [congruence|]. set (tds := t0 :: tr) in *.
      apply bind_inv in H as (g & G & H). destruct g as [| |m1]; try discriminate.
      eapply gather_single; [exact TD|exact TT|apply inv_start; exact TD|exact G| |].
      * apply in_map_iff. exists (s, v). eauto.
      * apply in_assoc; auto. apply TD.
    + destruct (C170_names _ _ _ _ TD TT N H) as (_ & X). destruct (X s v I) as (v' & _ & _ & _ & n & F). eauto.
  - intros H. assert (B : exists n, forall k, In k (map fst m) -> exists v t, assoc m k = Some v /\ n_multiple v = false /\ full_name n tds m k t).
    { assert (K : forall l, (forall k, In k l -> In k (map fst m)) -> exists n, forall k, In k l -> exists v t, assoc m k = Some v /\ n_multiple v = false /\ full_name n tds m k t).
      { induction l as [|k l IH]; intros L0; [exists 0; intros k []|]. destruct IH as (n & IH); [intros j J; apply L0; now right|].
        assert (I := L0 k (or_introl eq_refl)). apply in_map_iff in I as ((k' & v) & E & I). cbn in E. subst k'.
        destruct (H k v I) as (M & i & t & F). exists (Nat.max i n). intros j [<-|J].
        - exists v, t. split; [apply in_assoc; auto; apply TD|]. split; [exact M|]. eapply full_mono; [|exact F]. lia.
        - destruct (IH j J) as (v' & t' & A & M' & F'). exists v', t'. split; [exact A|]. split; [exact M'|]. eapply full_mono; [|exact F']. lia. }
      apply K. auto. }
    destruct B as (n & B). exists n. unfold host_names. destruct tds as [|t0 tr]; [congruence|]. set (tds := t0 :: tr) in *.
    destruct (gather_ok tds m n (map fst m) n TD TT (le_n n) B _ _ (inv_start tds m TD)) as (m' & ->). cbn. eauto.
Qed.
Theorem C171_order fuel tds m1 m2 r1 : tidy m1 -> tidy_typedefs tds -> tds <> [] -> Permutation m1 m2 -> host_names fuel tds m1 = Ok r1 ->
  exists fuel2 r2, host_names fuel2 tds m2 = Ok r2 /\ forall s v1 v2, In (s, v1) r1 -> In (s, v2) r2 -> n_local v1 = n_local v2.
Proof.
  intros TD TT N P H.
  assert (TD2 : tidy m2).
  { destruct TD as [A B]. split; [eapply Permutation_NoDup; [apply Permutation_map; exact P|exact A]|]. intros s v I. eapply B. eapply Permutation_in; [symmetry; exact P|exact I]. }
  assert (S12 : forall p, In p m1 -> In p m2) by (intros p; now apply Permutation_in).
  assert (S21 : forall p, In p m2 -> In p m1) by (intros p; apply Permutation_in; now symmetry).
  assert (X : exists fuel2 r2, host_names fuel2 tds m2 = Ok r2).
  { apply C172_exactly; auto. intros s v I. apply S21 in I. destruct (proj1 (C172_exactly tds m1 TD TT N) (ex_intro _ fuel (ex_intro _ r1 H)) s v I) as (M & n & t & F).
    split; [exact M|]. exists n, t. eapply full_perm; eauto. }
  destruct X as (fuel2 & r2 & H2). exists fuel2, r2. split; [exact H2|]. intros s v1 v2 I1 I2.
  destruct (C170_names _ _ _ _ TD TT N H) as (E1 & F1). destruct (C170_names _ _ _ _ TD2 TT N H2) as (E2 & F2).
  assert (Q : forall (m r : meta) v, map fst r = map fst m -> In (s, v) r -> exists w, In (s, w) m).
  { intros m r v E I. assert (J : In s (map fst m)) by (rewrite <- E; apply in_map_iff; exists (s, v); auto). apply in_map_iff in J as ((k & w) & K & J). cbn in K. subst k. eauto. }
  destruct (Q m1 r1 v1 E1 I1) as (w1 & J1). destruct (F1 s w1 J1) as (v1' & K1 & _ & _ & n1 & G1). destruct (Q m2 r2 v2 E2 I2) as (w2 & J2). destruct (F2 s w2 J2) as (v2' & K2 & _ & _ & n2 & G2).
  assert (v1 = v1').
  { assert (ND : NoDup (map fst r1)) by (rewrite E1; apply TD). apply in_assoc in I1; auto. apply in_assoc in K1; auto. congruence. }
  assert (v2 = v2').
  { assert (ND : NoDup (map fst r2)) by (rewrite E2; apply TD2). apply in_assoc in I2; auto. apply in_assoc in K2; auto. congruence. }
  subst. eapply C170_unique; [exact TD|exact TT|eauto|]. exists n2. eapply full_perm; [|exact G2]. exact S21.
Qed.
Print Assumptions C171_order.
Example C171_example : match host_names 9 ex_tds (rev ex_m) with Ok m => map (fun p => n_local (snd p)) (rev m) | Raise _ => [] end =
  match host_names 9 ex_tds ex_m with Ok m => map (fun p => n_local (snd p)) m | Raise _ => [] end /\ exists m, host_names 9 ex_tds ex_m = Ok m.
Proof. split; [vm_compute; reflexivity|eexists; vm_compute; reflexivity]. Qed.
Print Assumptions C172_exactly.
Example C172_example : forall s v, In (s, v) ex_m -> n_multiple v = false /\ exists n t, full_name n ex_tds ex_m s t.
Proof. apply C172_exactly; [apply ex_tidy|apply ex_tidy|discriminate|]. exists 9. eexists. vm_compute. reflexivity. Qed.
(* subscripts that need each other: the conversion never ends *)
Definition ex_cycle : meta := [(L "a", v_of "x(b)" "gfs" None); (L "b", v_of "y(a)" "gfs" None)].
Theorem C172_cycle_refuted : forall fuel, host_names fuel ex_tds ex_cycle = Raise "RecursionError".
Proof.
  assert (RA : forall conv : str -> state -> res (option str * state), conv (L "b") (ex_cycle, []) = Raise "RecursionError" -> convert_reference conv (L "x(b)") (ex_cycle, []) = Raise "RecursionError").
  { intros conv E. cbv in *. now rewrite E. }
  assert (RB : forall conv : str -> state -> res (option str * state), conv (L "a") (ex_cycle, []) = Raise "RecursionError" -> convert_reference conv (L "y(a)") (ex_cycle, []) = Raise "RecursionError").
  { intros conv E. cbv in *. now rewrite E. }
  assert (K : forall f, convert f ex_tds (L "a") (ex_cycle, []) = Raise "RecursionError" /\ convert f ex_tds (L "b") (ex_cycle, []) = Raise "RecursionError").
  { induction f as [|f [IA IB]]; [split; reflexivity|]. apply RA in IB. apply RB in IA. split; cbn [convert].
    - change (assoc (fst (ex_cycle, @nil str)) (L "a")) with (Some (v_of "x(b)" "gfs" None)). cbv beta iota.
      change (n_local (v_of "x(b)" "gfs" None)) with (L "x(b)"). rewrite IB. reflexivity.
    - change (assoc (fst (ex_cycle, @nil str)) (L "b")) with (Some (v_of "y(a)" "gfs" None)). cbv beta iota.
      change (n_local (v_of "y(a)" "gfs" None)) with (L "y(a)"). rewrite IA. reflexivity. }
  intros f. destruct (K f) as [E _]. unfold host_names.
  assert (G : gather f ex_tds (map fst ex_cycle) (ex_cycle, []) = Raise "RecursionError").
  { change (map fst ex_cycle) with [L "a"; L "b"]. cbn [gather]. change (assoc (fst (ex_cycle, @nil str)) (L "a")) with (Some (v_of "x(b)" "gfs" None)).
    cbn [n_multiple v_of]. rewrite E. reflexivity. }
  unfold ex_tds at 1. rewrite G. reflexivity.
Qed.
Print Assumptions C172_cycle_refuted.
(* the errors that are found are not reported: the caller cannot take what it is given *)
Theorem C172_message_refuted :
  host_names 9 ex_tds [(L "soil_temperature", v_of "st" "gfs" (Some "soil_t"%string))] = Raise "ValueError" /\
  host_names 9 ex_tds [(L "pi", mkN (L "con_pi") (L "gfs") None true)] = Raise "TypeError" /\
  host_names 9 ex_tds [(L "water_vapor", v_of "q(:,index_of_water_vapor)" "gfs" None)] = Raise "KeyError".
Proof. vm_compute. auto. Qed.
Print Assumptions C172_message_refuted.
