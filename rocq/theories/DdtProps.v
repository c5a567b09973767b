(* DdtProps.v: C35 references to components, C71 collection of components. *)
From Verif Require Import PyStr DictModel DictProofs ReqModel ReqProofs DdtModel DdtSpec.
Open Scope nat_scope.
Open Scope list_scope.

Lemma var_ddt_is f v : var_ddt f v = ODdt (own v) (OVar f).
Proof. destruct v; reflexivity. Qed.
Definition ent (r : field) (f : field) : str * obj := (f_std f, ODdt r (OVar f)).
Fixpoint good (r : field) (parents : list str) (d : ddict) (l : list field) : Prop :=
  match l with
  | [] => True
  | f :: l => knows parents d (f_std f) = false /\ has_local d (f_local f) = false /\ good r parents (d ++ [ent r f]) l
  end.
Lemma good_app r ps : forall l1 d l2, good r ps d (l1 ++ l2) <-> good r ps d l1 /\ good r ps (d ++ map (ent r) l1) l2.
Proof.
  induction l1 as [|f l1 IH]; intros d l2; cbn [app good map]; [rewrite app_nil_r; tauto|].
  rewrite IH. rewrite <- app_assoc. cbn [app]. tauto.
Qed.
Lemma get_defines lib t fs : get t lib = Some fs <-> defines_type lib t fs.
Proof.
  unfold defines_type. induction lib as [|[t' fs'] lib IH]; cbn [get].
  - split; [discriminate|]. intros (a & b & E & _). destruct a; discriminate E.
  - destruct (str_eqb t t') eqn:Q.
    + apply str_eqb_eq in Q. subst t'. split.
      * intros [= ->]. exists [], lib. split; [reflexivity|intros x []].
      * intros (a & b & E & N). destruct a as [|x a]; cbn in E; injection E as E1 E2; [congruence|]. exfalso. apply (N x); [now left|]. now subst x.
    + rewrite IH. split.
      * intros (a & b & -> & N). exists ((t', fs') :: a), b. split; auto. intros x [<-|I]; auto. cbn. apply str_eqb_neq in Q. congruence.
      * intros (a & b & E & N). destruct a as [|x a]; cbn in E; injection E as E1 E2.
        -- subst. now rewrite str_eqb_refl in Q.
        -- exists a, b. split; auto. intros y I. apply N. now right.
Qed.
Definition parts (lib : library) (f : field) : option (list field) := if f_ddt f then get (f_type f) lib else None.
Lemma parts_expands lib f fs : parts lib f = Some fs <-> expands lib f fs.
Proof.
  unfold parts, expands. destruct (f_ddt f); [rewrite get_defines; tauto|]. split; [discriminate|]. intros [X _]. discriminate X.
Qed.
Definition step (fuel : nat) (lib : library) (ps : list str) (v : obj) (skip : bool) (d0 : ddict) (f : field) : res ddict :=
  d1 <- (match parts lib f with Some fs => collect fuel lib ps d0 (var_ddt f v) fs false | None => Ok d0 end) ;;
  if knows ps d1 (f_std f) then if skip then Ok d1 else Raise "CCPPError" else add_new d1 (var_ddt f v).
Lemma collect_S fuel lib ps d v fs skip :
  collect (S fuel) lib ps d v fs skip = fold_left (fun acc f => bind acc (fun d0 => step fuel lib ps v skip d0 f)) fs (Ok d).
Proof. reflexivity. Qed.
Lemma fold_raise {A B} (g : B -> A -> res B) l e : fold_left (fun acc x => bind acc (fun d => g d x)) l (Raise e) = Raise e.
Proof. induction l; auto. Qed.
Lemma step_ok fuel lib ps v d0 f d2 : step fuel lib ps v false d0 f = Ok d2 <->
  exists d1, match parts lib f with Some fs => collect fuel lib ps d0 (var_ddt f v) fs false = Ok d1 | None => d1 = d0 end /\
    knows ps d1 (f_std f) = false /\ has_local d1 (f_local f) = false /\ d2 = d1 ++ [ent (own v) f].
Proof.
  unfold step. rewrite bind_ok. split.
  - intros (d1 & A & B). exists d1. split; [destruct (parts lib f); [auto|congruence]|].
    destruct (knows ps d1 (f_std f)); [discriminate|]. unfold add_new in B. rewrite var_ddt_is in B. cbn [leaf] in B.
    destruct (has_local d1 (f_local f)); [discriminate|]. injection B as <-. auto.
  - intros (d1 & A & B & C & ->). exists d1. split; [destruct (parts lib f); [auto|congruence]|]. rewrite B. unfold add_new. rewrite var_ddt_is. cbn [leaf]. now rewrite C.
Qed.
Lemma collect_sound lib ps : forall fuel fs d v d', collect fuel lib ps d v fs false = Ok d' ->
  exists l, listing lib fs l /\ d' = d ++ map (ent (own v)) l /\ good (own v) ps d l.
Proof.
  induction fuel as [|fuel IH]; intros fs d v d' H; [discriminate|]. rewrite collect_S in H. revert d H.
  induction fs as [|f fs IHf]; intros d H; cbn [fold_left] in H.
  - injection H as <-. exists []. split; [constructor|]. cbn. now rewrite app_nil_r.
  - cbn [bind] in H. destruct (step fuel lib ps v false d f) as [d2|e] eqn:E; [|rewrite fold_raise in H; discriminate].
    destruct (IHf _ H) as (l & LI & -> & G). apply step_ok in E as (d1 & A & B & C & ->). destruct (parts lib f) as [gs|] eqn:P.
    + destruct (IH _ _ _ _ A) as (m & LM & -> & GM). rewrite var_ddt_is in *. cbn [own] in *. exists (m ++ f :: l). split; [|split].
      * apply list_ddt with gs; auto. now apply parts_expands.
      * rewrite map_app. cbn [map]. rewrite <- !app_assoc. reflexivity.
      * apply good_app. split; auto. cbn [good]. auto.
    + subst d1. exists (f :: l). split; [|split].
      * apply list_leaf; auto. intros gs X. apply parts_expands in X. congruence.
      * cbn [map]. rewrite <- app_assoc. reflexivity.
      * cbn [good]. auto.
Qed.
Lemma collect_complete lib ps fs l : listing lib fs l -> exists N, forall fuel d v, N <= fuel -> good (own v) ps d l ->
  collect fuel lib ps d v fs false = Ok (d ++ map (ent (own v)) l).
Proof.
  induction 1 as [|f fs l NX LI [N IH]|f gs fs m l X LM [M IHM] LI [N IH]].
  - exists 1. intros fuel d v LE _. destruct fuel; [lia|]. cbn. now rewrite app_nil_r.
  - exists (S N). intros fuel d v LE G. destruct fuel as [|fuel]; [lia|]. cbn [good] in G. destruct G as (B & C & G).
    rewrite collect_S. cbn [fold_left bind]. assert (E : step fuel lib ps v false d f = Ok (d ++ [ent (own v) f])).
    { apply step_ok. exists d. destruct (parts lib f) as [gs|] eqn:P; [apply parts_expands in P; now elim (NX gs)|]. auto. }
    rewrite E. change (collect (S fuel) lib ps (d ++ [ent (own v) f]) v fs false = Ok (d ++ map (ent (own v)) (f :: l))). rewrite IH; [|lia|auto].
    cbn [map]. now rewrite <- app_assoc.
  - exists (S (M + N)). intros fuel d v LE G. destruct fuel as [|fuel]; [lia|]. apply good_app in G as [GM G]. cbn [good] in G. destruct G as (B & C & G).
    rewrite collect_S. cbn [fold_left bind]. assert (E : step fuel lib ps v false d f = Ok ((d ++ map (ent (own v)) m) ++ [ent (own v) f])).
    { apply step_ok. exists (d ++ map (ent (own v)) m). apply parts_expands in X. rewrite X. split; [|auto].
      assert (OW : own (var_ddt f v) = own v) by (now rewrite var_ddt_is). rewrite <- OW. apply IHM; [lia|]. now rewrite OW. }
    rewrite E. change (collect (S fuel) lib ps ((d ++ map (ent (own v)) m) ++ [ent (own v) f]) v fs false = Ok (d ++ map (ent (own v)) (m ++ f :: l))). rewrite IH; [|lia|auto].
    rewrite map_app. cbn [map]. now rewrite <- !app_assoc.
Qed.

(* the conditions, spelled out *)
Definition std_free (ps : list str) (d : ddict) (l : list field) : Prop :=
  NoDup (map f_std l) /\ forall f, In f l -> f_std f <> L "ccpp_constant_one" /\ ~ In (f_std f) ps /\ ~ In (f_std f) (map fst d).
Definition low_local (f : field) : str := lower (f_local f).
Definition local_free (d : ddict) (l : list field) : Prop :=
  NoDup (map low_local l) /\ forall f, In f l -> ~ In (low_local f) (map (fun e => low_local (leaf (snd e))) d).
Lemma knows_false ps d s : knows ps d s = false <-> s <> L "ccpp_constant_one" /\ ~ In s ps /\ ~ In s (map fst d).
Proof. unfold knows. rewrite !orb_false_iff, str_eqb_neq, !mem_not. unfold const_one. tauto. Qed.
Lemma good_iff r ps : forall l d, good r ps d l <-> std_free ps d l /\ local_free d l.
Proof.
  unfold std_free, local_free. induction l as [|f l IH]; intros d; cbn [good map].
  - split; auto. intros _. repeat split; try constructor; now intros.
  - rewrite IH, knows_false. unfold has_local. fold (low_local f). rewrite mem_not. change (fun e : str * obj => lower (f_local (leaf (snd e)))) with (fun e : str * obj => low_local (leaf (snd e))).
    rewrite !map_app. cbn [map fst snd ent leaf]. rewrite !NoDup_cons_iff. split.
    + intros ((A1 & A2 & A3) & B & (C1 & C2) & D1 & D2). split; split.
      * split; auto. intros I. apply in_map_iff in I as (g & E & I). destruct (C2 g I) as (_ & _ & X). apply X. rewrite E. apply in_or_app. right. now left.
      * intros g [<-|I]; auto. destruct (C2 g I) as (X & Y & Z). repeat split; auto. intros J. apply Z. apply in_or_app. now left.
      * split; auto. intros I. apply in_map_iff in I as (g & E & I). apply (D2 g I). rewrite E. apply in_or_app. right. now left.
      * intros g [<-|I]; auto. intros J. apply (D2 g I). apply in_or_app. now left.
    + intros (((A1 & A2) & A3) & (B1 & B2) & B3). split; [apply (A3 f); now left|]. split; [apply (B3 f); now left|]. split; split; auto.
      * intros g I. destruct (A3 g (or_intror I)) as (X & Y & Z). repeat split; auto. intros J. apply in_app_or in J as [J|[J|[]]]; auto.
        apply A1. rewrite J. now apply in_map.
      * intros g I J. apply in_app_or in J as [J|[J|[]]]; [apply (B3 g (or_intror I) J)|]. apply B1. rewrite J. now apply in_map.
Qed.
Lemma expands_fun lib f gs hs : expands lib f gs -> expands lib f hs -> gs = hs.
Proof. intros A B. apply parts_expands in A, B. congruence. Qed.
Lemma listing_component lib fs l : listing lib fs l -> forall f, In f l <-> exists p, component lib fs (p ++ [f]).
Proof.
  assert (UP : forall f0 fs p, component lib fs p -> component lib (f0 :: fs) p).
  { intros f0 hs p C. destruct C; [apply comp_here; now right|eapply comp_deep; eauto; now right]. }
  induction 1 as [|f fs l NX LI IH|f gs fs m l X LM IHM LI IH]; intros g.
  - split; [intros []|]. intros (p & C). inversion C; contradiction.
  - split.
    + intros [<-|I]; [exists []; apply comp_here; now left|]. apply IH in I as (p & C). exists p. auto.
    + intros (p & C). inversion C as [fs' f' I E1 E2|fs' f' gs p' I X CG E1 E2]; subst.
      * destruct p as [|a [|b p]]; try discriminate E2. injection E2 as ->. destruct I as [->|I]; [now left|]. right. apply IH. exists []. now apply comp_here.
      * destruct I as [->|I]; [now elim (NX gs)|]. right. apply IH. exists p. rewrite <- E2. now apply comp_deep with gs.
  - rewrite in_app_iff. cbn [In]. split.
    + intros [I|[<-|I]].
      * apply IHM in I as (p & C). exists (f :: p). cbn [app]. apply comp_deep with gs; auto. now left.
      * exists []. apply comp_here. now left.
      * apply IH in I as (p & C). exists p. auto.
    + intros (p & C). inversion C as [fs' f' I E1 E2|fs' f' gs' p' I X' CG E1 E2]; subst.
      * destruct p as [|a [|b p]]; try discriminate E2. injection E2 as ->. destruct I as [->|I]; auto. right. right. apply IH. exists []. now apply comp_here.
      * destruct I as [->|I].
        -- assert (gs' = gs) by (eapply expands_fun; eauto). subst gs'. left. apply IHM.
           destruct p as [|a p]; cbn [app] in E2; injection E2 as <- ->; [inversion CG|]. now exists p.
        -- right. right. apply IH. exists p. rewrite <- E2. now apply comp_deep with gs'.
Qed.

(* ---- C71 ---- *)
(* when the components are collected, and what the dictionary then holds *)
Theorem C71_exact lib ps d v fs : defines_type lib (f_type v) fs ->
  ((exists fuel d', collect_var fuel lib ps d v false = Ok d') <->
   exists l, listing lib fs l /\ std_free ps d l /\ local_free d l) /\
  forall fuel d', collect_var fuel lib ps d v false = Ok d' ->
    exists new, d' = d ++ new /\ NoDup (map fst new) /\
      (forall s o, In (s, o) new -> s = f_std (leaf o) /\ s <> L "ccpp_constant_one" /\ ~ In s ps /\ ~ In s (map fst d)) /\
      forall f, (exists o, In (f_std f, o) new /\ leaf o = f) <-> exists p, component lib fs (p ++ [f]).
Proof.
  intros DT. apply get_defines in DT. unfold collect_var. rewrite DT. split.
  - split.
    + intros (fuel & d' & H). apply collect_sound in H as (l & LI & _ & G). exists l. split; auto. now apply good_iff in G.
    + intros (l & LI & G). destruct (collect_complete lib ps fs l LI) as (N & C). exists N. eexists. apply C; auto. now apply good_iff.
  - intros fuel d' H. apply collect_sound in H as (l & LI & -> & G). cbn [own] in *. apply good_iff in G as [[G1 G2] _]. exists (map (ent v) l). split; auto.
    split; [rewrite map_map; exact G1|]. split.
    + intros s o I. apply in_map_iff in I as (f & [= <- <-] & I). cbn [leaf]. split; auto.
    + intros f. rewrite <- (listing_component lib fs l LI). split.
      * intros (o & I & E). apply in_map_iff in I as (g & [= E1 E2] & I). subst o. cbn in E. now subst g.
      * intros I. exists (ODdt v (OVar f)). split; auto. now apply (in_map (ent v)).
Qed.
Print Assumptions C71_exact.

Definition ex_q : field := mkF (L "q") (L "specific_humidity") (L "real") false.
Definition ex_inner : field := mkF (L "tracers") (L "tracer_structure") (L "tracer_t") true.
Definition ex_temp : field := mkF (L "temp") (L "air_temperature") (L "real") false.
Definition ex_state : field := mkF (L "state") (L "physics_state") (L "state_t") true.
Definition ex_lib : library := [(L "state_t", [ex_temp; ex_inner]); (L "tracer_t", [ex_q])].
Lemma ex_dt : defines_type ex_lib (f_type ex_state) [ex_temp; ex_inner].
Proof. apply get_defines. reflexivity. Qed.
Lemma ex_comp : component ex_lib [ex_temp; ex_inner] ([ex_inner] ++ [ex_q]).
Proof. apply comp_deep with [ex_q]; [right; now left| |apply comp_here; now left]. apply parts_expands. reflexivity. Qed.
Example C71_ex : exists d', collect_var 2 ex_lib [L "physics_state"] [] ex_state false = Ok d' /\
  map fst d' = [L "air_temperature"; L "specific_humidity"; L "tracer_structure"].
Proof. eexists. split; reflexivity. Qed.

(* two components of different structures may not have the same local name, in any case *)
Theorem C71_same_local_name_refuted :
  let lib := [(L "state_t", [ex_temp; mkF (L "surf") (L "surface_structure") (L "surf_t") true]);
              (L "surf_t", [mkF (L "TEMP") (L "surface_temperature") (L "real") false])] in
  (exists l, listing lib [ex_temp; mkF (L "surf") (L "surface_structure") (L "surf_t") true] l /\ std_free [] [] l) /\
  forall fuel, exists e, collect_var fuel lib [] [] ex_state false = Raise e.
Proof.
  intros lib.
  assert (LS : listing lib [ex_temp; mkF (L "surf") (L "surface_structure") (L "surf_t") true]
    (ex_temp :: [mkF (L "TEMP") (L "surface_temperature") (L "real") false] ++ [mkF (L "surf") (L "surface_structure") (L "surf_t") true])).
  { apply list_leaf; [intros gs X; apply parts_expands in X; discriminate X|].
    apply list_ddt with [mkF (L "TEMP") (L "surface_temperature") (L "real") false]; [apply parts_expands; reflexivity| |constructor].
    apply list_leaf; [intros gs X; apply parts_expands in X; discriminate X|constructor]. }
  split.
  - eexists. split; [exact LS|]. split.
    + cbn. repeat constructor; cbn; intuition discriminate.
    + cbn. intros f [<-|[<-|[<-|[]]]]; cbn; (split; [discriminate|split; auto]).
  - intros fuel. destruct (collect_var fuel lib [] [] ex_state false) as [d'|e] eqn:E; [exfalso|now exists e].
    change (collect_var fuel lib [] [] ex_state false) with (collect fuel lib [] [] (OVar ex_state) [ex_temp; mkF (L "surf") (L "surface_structure") (L "surf_t") true] false) in E.
    destruct fuel as [|[|fuel]]; cbn in E; discriminate E.
Qed.
Print Assumptions C71_same_local_name_refuted.
(* a type with a component of its own type (a linked list) sends the collection into endless recursion *)
Theorem C71_recursive_type_refuted :
  let node := mkF (L "next") (L "next_node") (L "node_t") true in
  forall fuel, collect_var fuel [(L "node_t", [node])] [] [] (mkF (L "head") (L "first_node") (L "node_t") true) false = Raise "RecursionError".
Proof.
  intros node fuel. unfold collect_var. cbn [get f_type]. change (str_eqb (L "node_t") (L "node_t")) with true. cbn iota.
  generalize (OVar (mkF (L "head") (L "first_node") (L "node_t") true)). induction fuel as [|fuel IH]; intros v; [reflexivity|].
  rewrite collect_S. cbn [fold_left bind]. unfold step, parts. cbn [f_ddt node f_type get]. change (str_eqb (L "node_t") (L "node_t")) with true. cbn iota.
  now rewrite IH.
Qed.
Print Assumptions C71_recursive_type_refuted.

(* skip_duplicates: components of a structure without inner structures that are already known are skipped *)
Lemma skip_main lib ps v : forall fs fuel d d', (forall f gs, In f fs -> ~ expands lib f gs) ->
  fold_left (fun acc f => bind acc (fun d0 => step fuel lib ps v true d0 f)) fs (Ok d) = Ok d' ->
  exists new, d' = d ++ new /\ (forall s o, In (s, o) new -> s = f_std (leaf o) /\ In (leaf o) fs /\ ~ In s (map fst d) /\ ~ In s ps) /\
    forall f, In f fs -> knows ps d' (f_std f) = true.
Proof.
  induction fs as [|f fs IH]; intros fuel d d' NX H; cbn [fold_left] in H.
  - injection H as <-. exists []. rewrite app_nil_r. split; auto. split; [intros s o []|intros f []].
  - assert (E : step fuel lib ps v true d f = if knows ps d (f_std f) then Ok d else add_new d (var_ddt f v)).
    { unfold step. destruct (parts lib f) as [gs|] eqn:P; [|reflexivity]. apply parts_expands in P. now elim (NX f gs (or_introl eq_refl)). }
    change (bind (Ok d) (fun d0 => step fuel lib ps v true d0 f)) with (step fuel lib ps v true d f) in H.
    assert (NX' : forall f gs, In f fs -> ~ expands lib f gs) by (intros; apply NX; now right).
    assert (KU : forall d1 new s, knows ps d1 s = true -> knows ps (d1 ++ new) s = true).
    { intros d1 new s. unfold knows. rewrite !orb_true_iff, !mem_in, map_app, in_app_iff. tauto. }
    rewrite E in H. destruct (knows ps d (f_std f)) eqn:K.
    + destruct (IH _ _ _ NX' H) as (new & -> & A & B). exists new. split; auto. split.
      * intros s o I. destruct (A s o I) as (X & Y & Z). cbn. auto.
      * intros g [<-|I]; auto.
    + unfold add_new in H. rewrite var_ddt_is in H. cbn [leaf] in H. destruct (has_local d (f_local f)); [rewrite fold_raise in H; discriminate|].
      destruct (IH _ _ _ NX' H) as (new & -> & A & B). exists ((f_std f, ODdt (own v) (OVar f)) :: new). split; [now rewrite <- app_assoc|]. split.
      * intros s o [[= <- <-]|I].
        -- cbn [leaf]. apply knows_false in K. cbn. tauto.
        -- destruct (A s o I) as (X & Y & Z & W). split; auto. split; [now right|]. split; auto. intros J. apply Z. rewrite map_app. apply in_or_app. now left.
      * intros g [<-|I]; auto. apply KU. unfold knows. rewrite map_app. cbn. rewrite !orb_true_iff, !mem_in, in_app_iff. cbn. tauto.
Qed.
Theorem C71_skip_flat lib ps d v fs : defines_type lib (f_type v) fs -> (forall f gs, In f fs -> ~ expands lib f gs) ->
  forall fuel,
  collect_var fuel lib ps d v true <> Raise "CCPPError" /\
  forall d', collect_var fuel lib ps d v true = Ok d' ->
  exists new, d' = d ++ new /\ (forall s o, In (s, o) new -> s = f_std (leaf o) /\ In (leaf o) fs /\ ~ In s (map fst d) /\ ~ In s ps) /\
    forall f, In f fs -> f_std f = L "ccpp_constant_one" \/ In (f_std f) ps \/ In (f_std f) (map fst d').
Proof.
  intros DT NX fuel. apply get_defines in DT. unfold collect_var. rewrite DT. split.
  - destruct fuel as [|fuel]; [discriminate|]. rewrite collect_S. clear DT. revert d. induction fs as [|f fs IH]; intros d; cbn [fold_left]; [discriminate|].
    change (bind (Ok d) (fun d0 => step fuel lib ps (OVar v) true d0 f)) with (step fuel lib ps (OVar v) true d f).
    assert (IH' := IH (fun g gs I => NX g gs (or_intror I))). unfold step. destruct (parts lib f) as [gs|] eqn:P; [apply parts_expands in P; now elim (NX f gs (or_introl eq_refl))|].
    cbn [bind]. destruct (knows ps d (f_std f)); [apply IH'|]. unfold add_new. destruct (has_local _ _); [rewrite fold_raise; discriminate|apply IH'].
  - intros d' H. destruct fuel as [|fuel]; [discriminate|]. rewrite collect_S in H.
    destruct (skip_main _ _ _ _ _ _ _ NX H) as (new & E & A & B). exists new. split; auto. split; auto.
    intros f I. specialize (B f I). unfold knows in B. rewrite !orb_true_iff, !mem_in, str_eqb_eq in B. unfold const_one in B. tauto.
Qed.
Print Assumptions C71_skip_flat.
Example C71_skip_ex : (exists d', collect_var 2 [(L "tracer_t", [ex_q; ex_temp])] [L "specific_humidity"] [] ex_inner true = Ok d' /\ map fst d' = [L "air_temperature"]) /\
  collect_var 2 [(L "tracer_t", [ex_q; ex_temp])] [L "specific_humidity"] [] ex_inner false = Raise "CCPPError".
Proof. split; [eexists; split|]; reflexivity. Qed.
(* the flag is not handed down to inner structures *)
Theorem C71_skip_nested_refuted : collect_var 5 ex_lib [L "specific_humidity"] [] ex_state true = Raise "CCPPError".
Proof. reflexivity. Qed.
Print Assumptions C71_skip_nested_refuted.

(* ---- C35 ---- *)
Lemma collected lib ps d v fs fuel d' p f : defines_type lib (f_type v) fs -> collect_var fuel lib ps d v false = Ok d' -> component lib fs (p ++ [f]) ->
  get (f_std f) d' = Some (ODdt v (OVar f)).
Proof.
  intros DT H C. apply get_defines in DT. unfold collect_var in H. rewrite DT in H. apply collect_sound in H as (l & LI & -> & G). cbn [own] in *.
  apply good_iff in G as [[G1 G2] _]. assert (I : In f l) by (apply (listing_component _ _ _ LI); eauto). destruct (G2 f I) as (_ & _ & N).
  clear - G1 I N. induction d as [|[k o] d IH]; cbn [app get].
  - induction l as [|g l IHl]; [destruct I|]. cbn [map get ent]. cbn [map] in G1. apply NoDup_cons_iff in G1 as [N1 G1].
    destruct I as [->|I]; [now rewrite str_eqb_refl|]. replace (str_eqb (f_std f) (f_std g)) with false; [auto|]. symmetry. apply str_eqb_neq. intros E. apply N1. rewrite <- E. now apply in_map.
  - cbn [map fst] in N. replace (str_eqb (f_std f) k) with false; [apply IH; intros X; apply N; now right|]. symmetry. apply str_eqb_neq. intros E. apply N. left. now symmetry.
Qed.
(* a direct component of a host variable is referred to by its full path *)
Theorem C35_direct_partial lib ps d v fs fuel d' f : defines_type lib (f_type v) fs -> collect_var fuel lib ps d v false = Ok d' -> In f fs ->
  exists o, get (f_std f) d' = Some o /\ call_string o = full_path v [f].
Proof.
  intros DT H I. eexists. split; [apply (collected _ _ _ _ _ _ _ [] _ DT H); now apply comp_here|]. reflexivity.
Qed.
Print Assumptions C35_direct_partial.
(* a component of an inner structure never is: the inner structure is left out *)
Theorem C35_nested_refuted lib ps d v fs fuel d' p f : defines_type lib (f_type v) fs -> collect_var fuel lib ps d v false = Ok d' ->
  component lib fs (p ++ [f]) -> p <> [] ->
  exists o, get (f_std f) d' = Some o /\ call_string o = full_path v [f] /\ call_string o <> full_path v (p ++ [f]).
Proof.
  intros DT H C NE. eexists. split; [apply (collected _ _ _ _ _ _ _ _ _ DT H C)|]. split; [reflexivity|]. intros E. apply (f_equal (@length ascii)) in E. revert E.
  change (call_string (ODdt v (OVar f))) with (f_local v ++ L "%" ++ f_local f). unfold full_path. destruct p as [|g p]; [now elim NE|].
  assert (LJ : forall x q, length (join (L "%") (map f_local (x :: q ++ [f]))) >= length (f_local x) + 1 + length (f_local f)).
  { intros x q. revert x. induction q as [|y q IH]; intros x.
    - cbn. rewrite app_length. cbn. lia.
    - change (join (L "%") (map f_local (x :: (y :: q) ++ [f]))) with (f_local x ++ L "%" ++ join (L "%") (map f_local (y :: q ++ [f]))).
      rewrite !app_length. specialize (IH y). change (length (L "%")) with 1. lia. }
  change (join (L "%") (map f_local (v :: (g :: p) ++ [f]))) with (f_local v ++ L "%" ++ join (L "%") (map f_local (g :: p ++ [f]))).
  rewrite !app_length. specialize (LJ g p). change (length (L "%")) with 1. lia.
Qed.
Print Assumptions C35_nested_refuted.
Example C35_ex : exists d' o, collect_var 2 ex_lib [] [] ex_state false = Ok d' /\ get (f_std ex_q) d' = Some o /\
  call_string o = L "state%q" /\ full_path ex_state [ex_inner; ex_q] = L "state%tracers%q" /\ component ex_lib [ex_temp; ex_inner] ([ex_inner] ++ [ex_q]).
Proof. eexists. eexists. split; [reflexivity|]. split; [reflexivity|]. split; [reflexivity|]. split; [reflexivity|]. apply ex_comp. Qed.
(* a variable of an unknown type is an error *)
Theorem C71_unknown_type fuel lib ps d v skip : (forall fs, ~ defines_type lib (f_type v) fs) -> collect_var fuel lib ps d v skip = Raise "ParseInternalError".
Proof. intros N. unfold collect_var. destruct (get (f_type v) lib) as [fs|] eqn:E; auto. apply get_defines in E. now elim (N fs). Qed.
Print Assumptions C71_unknown_type.
Example C71_unknown_ex : forall fs, ~ defines_type ex_lib (f_type ex_q) fs.
Proof. intros fs X. apply get_defines in X. discriminate X. Qed.
