(* HmProofs.v: construction of the host model, and the use meter. *)
From Verif Require Import PyStr Regex DictModel DictProofs ReqModel ReqProofs CheckModel CheckSpec CheckProofs DdtModel DdtSpec DdtProps HmModel HmSpec.
Open Scope nat_scope.
Open Scope list_scope.

Lemma b_inv {A B} (x : res A) (f : A -> res B) r : (a <- x ;; f a) = Ok r -> exists a, x = Ok a /\ f a = Ok r.
Proof. destruct x; cbn; [eauto|discriminate]. Qed.
Lemma Ok_eq {A} (x y : A) : Ok x = Ok y -> x = y.
Proof. now intros [= ->]. Qed.
Lemma each_app {A B} (f : A -> B -> res A) : forall l1 l2 a, each f a (l1 ++ l2) = (a1 <- each f a l1 ;; each f a1 l2).
Proof. induction l1 as [|x l1 IH]; intros l2 a; cbn; auto. destruct (f a x); cbn; auto. Qed.
Lemma loop_iff s : is_loop s = true <-> loop_std s.
Proof. unfold is_loop, loop_std. apply mem_in. Qed.

Definition comps (vs : list field) (ms : list (list field)) : ddict :=
  flat_map (fun vm : field * list field => map (ent (fst vm)) (snd vm)) (combine vs ms).
Definition keyed (v : field) : str * field := (f_std v, v).
Definition low (f : field) : str := lower (f_local f).
Definition st_is (h : host) (vs : list field) (ms : list (list field)) : Prop := m_vars h = map keyed vs /\ m_ddt h = comps vs ms.

Lemma comps_snoc vs ms v m : length vs = length ms -> comps (vs ++ [v]) (ms ++ [m]) = comps vs ms ++ map (ent v) m.
Proof.
  revert ms. induction vs as [|x vs IH]; intros [|y ms] E; try discriminate E; unfold comps in *; cbn.
  - now rewrite app_nil_r.
  - rewrite IH by (cbn in E; congruence). now rewrite app_assoc.
Qed.
Lemma keys_keyed vs : map fst (map keyed vs) = map f_std vs.
Proof. rewrite map_map. reflexivity. Qed.
Lemma keys_comps vs ms : length vs = length ms -> map fst (comps vs ms) = map f_std (List.concat ms).
Proof.
  revert ms. induction vs as [|x vs IH]; intros [|y ms] E; try discriminate E; unfold comps in *; cbn; auto.
  rewrite !map_app, IH by (cbn in E; congruence). f_equal. rewrite map_map. reflexivity.
Qed.
Lemma lows_comps vs ms : length vs = length ms -> map (fun e => low_local (leaf (snd e))) (comps vs ms) = map low (List.concat ms).
Proof.
  revert ms. induction vs as [|x vs IH]; intros [|y ms] E; try discriminate E; unfold comps in *; cbn; auto.
  rewrite !map_app, IH by (cbn in E; congruence). f_equal. rewrite map_map. reflexivity.
Qed.
Lemma F2_len {A B} (R : A -> B -> Prop) l1 l2 : Forall2 R l1 l2 -> length l1 = length l2.
Proof. induction 1; cbn; congruence. Qed.
Lemma component_of_parts lib v m : parts_of lib v m -> forall c, In c m <-> component_of lib v c.
Proof.
  intros P c. destruct P as [[N ->]|(D & fs & DT & LI)].
  - split; [intros []|]. intros [X _]. congruence.
  - rewrite (listing_component lib fs m LI). unfold component_of. split.
    + intros (p & C). split; auto. exists fs, p. auto.
    + intros (_ & gs & p & DT' & C). assert (gs = fs) by (apply get_defines in DT, DT'; congruence). subst gs. eauto.
Qed.
Lemma comps_in lib : forall vs ms, Forall2 (parts_of lib) vs ms -> forall e, In e (comps vs ms) <-> exists v c, In v vs /\ component_of lib v c /\ e = ent v c.
Proof.
  induction 1 as [|v m vs ms P F IH]; intros e; unfold comps in *; cbn [combine flat_map].
  - split; [intros []|]. intros (v & c & [] & _).
  - rewrite in_app_iff, IH. cbn [fst snd]. rewrite in_map_iff. split.
    + intros [(c & <- & I)|(w & c & I & C & ->)].
      * exists v, c. split; [now left|]. split; auto. now apply (component_of_parts _ _ _ P).
      * exists w, c. split; [now right|]. auto.
    + intros (w & c & [->|I] & C & ->).
      * left. exists c. split; auto. now apply (component_of_parts _ _ _ P).
      * right. exists w, c. auto.
Qed.
Lemma concat_in lib : forall vs ms, Forall2 (parts_of lib) vs ms -> forall c, In c (List.concat ms) <-> exists v, In v vs /\ component_of lib v c.
Proof.
  induction 1 as [|v m vs ms P F IH]; intros c; cbn [List.concat].
  - split; [intros []|]. intros (v & [] & _).
  - rewrite in_app_iff, IH, (component_of_parts _ _ _ P). split.
    + intros [C|(w & I & C)]; [exists v|exists w]; cbn; auto.
    + intros (w & [->|I] & C); [auto|]. right. eauto.
Qed.

(* ---- one variable ---- *)
Definition addable (vs : list field) (ms : list (list field)) (v : field) (m : list field) : Prop :=
  f_std v <> L "ccpp_constant_one" /\ ~ In (f_std v) (map f_std vs) /\ ~ In (f_std v) (map f_std (List.concat ms)) /\
  ~ In (low v) (map low vs) /\ std_free (map f_std vs ++ [f_std v]) (comps vs ms) m /\ local_free (comps vs ms) m.
Lemma nodup_app_iff {A} (l1 l2 : list A) : NoDup (l1 ++ l2) <-> NoDup l1 /\ NoDup l2 /\ forall x, In x l1 -> ~ In x l2.
Proof.
  induction l1 as [|x l1 IH]; cbn [app].
  - split; [intros H; repeat split; auto; constructor|tauto].
  - rewrite !NoDup_cons_iff, IH, in_app_iff. split.
    + intros (N & X & Y & C). repeat split; auto. intros y [<-|I]; auto.
    + intros ((N & X) & Y & C). repeat split; auto.
      * intros [I|I]; auto. apply (C x); [now left|auto].
      * intros y I. apply C. now right.
Qed.
Lemma consistent_snoc lib vs ms v m : length vs = length ms ->
  (consistent lib (vs ++ [v]) (ms ++ [m]) <-> consistent lib vs ms /\ parts_of lib v m /\ addable vs ms v m).
Proof.
  intros LE. unfold consistent, addable, std_free, local_free. rewrite keys_comps, lows_comps by auto.
  change (fun v0 : field => lower (f_local v0)) with low. rewrite !map_app, concat_app. cbn [map List.concat]. rewrite app_nil_r, !map_app.
  change (map low_local m) with (map low m).
  assert (F : Forall2 (parts_of lib) (vs ++ [v]) (ms ++ [m]) <-> Forall2 (parts_of lib) vs ms /\ parts_of lib v m).
  { split.
    - intros H. clear -H LE. revert ms LE H. induction vs as [|x vs IH]; intros [|y ms] LE H; try discriminate LE; cbn in H.
      + inversion H; subst. auto.
      + inversion H as [|? ? ? ? P F]; subst. cbn in LE. destruct (IH ms) as [A B]; auto.
    - intros [A B]. apply Forall2_app; auto. }
  rewrite F. rewrite !nodup_app_iff. cbn [In].
  assert (ND1 : NoDup [f_std v] <-> True) by (split; auto; intros _; repeat constructor; auto).
  assert (ND2 : NoDup [low v] <-> True) by (split; auto; intros _; repeat constructor; auto).
  rewrite ND1, ND2. split.
  - intros ((A1 & A2) & ((B1 & _ & B2) & (B3 & B4 & B5) & B6) & C & (D1 & _ & D2) & E1 & E2 & E3).
    split; [|split; [auto|]].
    + repeat split; auto.
      * intros x X Y. apply (B6 x); apply in_or_app; auto.
      * intros c I. apply C. rewrite !in_app_iff in *. tauto.
    + split; [apply C; rewrite !in_app_iff; cbn; auto|]. split; [intros I; apply (B2 _ I); auto|].
      split; [intros I; apply (B6 (f_std v)); rewrite !in_app_iff; cbn; auto|]. split; [intros I; apply (D2 _ I); auto|].
      split; split; auto.
      * intros f I. split; [apply C; rewrite !in_app_iff; auto|]. split.
        -- intros J. apply (B6 (f_std f)); [exact J|]. apply in_or_app. right. now apply in_map.
        -- intros J. apply (B5 _ J). now apply in_map.
      * intros f I J. apply (E3 _ J). now apply (in_map low).
  - intros ((A1 & A2 & A3 & A4 & A5) & P & (B1 & B2 & B3 & B4 & (C1 & C2) & D1 & D2)).
    split; [auto|]. split; [|split; [|split]].
    + split; [split; [exact (proj1 A2)|split; [exact Logic.I|intros x X [<-|[]]; auto]]|]. split; [split; [exact (proj1 (proj2 A2))|split; [exact C1|]]|].
      * intros x I J. apply in_map_iff in J as (f & <- & J). destruct (C2 f J) as (_ & _ & N). auto.
      * intros x I J. apply in_app_or in I. apply in_app_or in J. destruct I as [I|[<-|[]]], J as [J|J].
        -- apply (proj2 (proj2 A2) x); auto.
        -- apply in_map_iff in J as (f & <- & J). destruct (C2 f J) as (_ & N & _). apply N. apply in_or_app. now left.
        -- auto.
        -- apply in_map_iff in J as (f & E & J). destruct (C2 f J) as (_ & N & _). apply N. apply in_or_app. right. cbn. auto.
    + intros c I. rewrite !in_app_iff in I. destruct I as [[I|[<-|[]]]|[I|I]]; auto.
      * apply A3. apply in_or_app. auto.
      * apply A3. apply in_or_app. auto.
      * apply (C2 c I).
    + split; [exact A4|]. split; [exact Logic.I|]. intros x X [<-|[]]; auto.
    + split; [exact A5|]. split; [exact D1|]. intros x I J. apply in_map_iff in J as (f & <- & J). apply (D2 f J). exact I.
Qed.
Lemma collect_sound' fuel lib h v h' : f_ddt v = true -> collect_fields fuel lib h v = Ok h' ->
  exists m, parts_of lib v m /\ std_free (map fst (m_vars h)) (m_ddt h) m /\ local_free (m_ddt h) m /\
    h' = mkHost (m_name h) (m_vars h) (m_ddt h ++ map (ent v) m) (m_loc h) (m_loop h).
Proof.
  intros D H. apply b_inv in H as (d & H & E). apply Ok_eq in E. subst h'. unfold collect_var in H.
  destruct (get (f_type v) lib) as [fs|] eqn:G; [|discriminate]. apply get_defines in G.
  apply collect_sound in H as (m & LI & -> & GO). cbn [own] in *. apply good_iff in GO as [A B]. exists m.
  split; [|auto]. right. split; auto. exists fs. auto.
Qed.
Lemma collect_complete' lib h v m : f_ddt v = true -> parts_of lib v m -> std_free (map fst (m_vars h)) (m_ddt h) m -> local_free (m_ddt h) m ->
  exists N, forall fuel, N <= fuel -> collect_fields fuel lib h v = Ok (mkHost (m_name h) (m_vars h) (m_ddt h ++ map (ent v) m) (m_loc h) (m_loop h)).
Proof.
  intros D P SF LF. destruct P as [[X _]|(_ & fs & DT & LI)]; [congruence|]. destruct (collect_complete lib (map fst (m_vars h)) fs m LI) as (N & C).
  exists N. intros fuel LE. unfold collect_fields, collect_var. apply get_defines in DT. rewrite DT. rewrite C; [reflexivity|auto|].
  cbn [own]. apply good_iff. auto.
Qed.
Lemma comp_sound fuel lib h v h' : components_of fuel lib h v = Ok h' ->
  exists m, parts_of lib v m /\ std_free (map fst (m_vars h)) (m_ddt h) m /\ local_free (m_ddt h) m /\
    h' = mkHost (m_name h) (m_vars h) (m_ddt h ++ map (ent v) m) (m_loc h) (m_loop h).
Proof.
  unfold components_of. destruct (f_ddt v) eqn:D.
  - destruct (get (f_type v) lib); [|discriminate]. now apply collect_sound'.
  - intros E. apply Ok_eq in E. subst h'. exists []. split; [left; auto|]. split; [split; [constructor|intros f []]|].
    split; [split; [constructor|intros f []]|]. cbn. rewrite app_nil_r. now destruct h.
Qed.
Lemma comp_complete lib h v m : parts_of lib v m -> std_free (map fst (m_vars h)) (m_ddt h) m -> local_free (m_ddt h) m ->
  exists N, forall fuel, N <= fuel -> components_of fuel lib h v = Ok (mkHost (m_name h) (m_vars h) (m_ddt h ++ map (ent v) m) (m_loc h) (m_loop h)).
Proof.
  intros P SF LF. destruct (f_ddt v) eqn:D.
  - destruct (collect_complete' lib h v m D P SF LF) as (N & C). exists N. intros fuel LE. unfold components_of. rewrite D.
    destruct P as [[X _]|(_ & fs & DT & LI)]; [congruence|]. apply get_defines in DT. rewrite DT. auto.
  - exists 0. intros fuel _. unfold components_of. rewrite D. destruct P as [[_ ->]|(X & _)]; [|congruence]. cbn. rewrite app_nil_r. now destruct h.
Qed.
Lemma add_variable_ok h v h' vs ms : st_is h vs ms -> length vs = length ms ->
  (add_variable h v = Ok h' <-> (f_std v <> L "ccpp_constant_one" /\ ~ In (f_std v) (map f_std vs) /\ ~ In (f_std v) (map f_std (List.concat ms)) /\
    ~ In (low v) (map low vs)) /\ h' = mkHost (m_name h) (map keyed (vs ++ [v])) (comps vs ms) (m_loc h) (m_loop h)).
Proof.
  intros [A B] LE. unfold add_variable. rewrite A, B, keys_keyed, keys_comps by auto.
  destruct (str_eqb (f_std v) const_one) eqn:E1; cbn [orb].
  - apply str_eqb_eq in E1. split; [discriminate|]. unfold const_one in E1. tauto.
  - apply str_eqb_neq in E1. destruct (mem (f_std v) (map f_std vs)) eqn:E2; cbn [orb].
    + apply mem_in in E2. split; [discriminate|tauto].
    + apply mem_not in E2. destruct (mem (f_std v) (map f_std (List.concat ms))) eqn:E3; cbn [orb].
      * apply mem_in in E3. split; [discriminate|tauto].
      * apply mem_not in E3. rewrite map_map. change (fun x => lower (f_local (snd (keyed x)))) with low. change (lower (f_local v)) with (low v).
        destruct (mem (low v) (map low vs)) eqn:E4.
        -- apply mem_in in E4. split; [discriminate|tauto].
        -- apply mem_not in E4. rewrite map_app. cbn [map]. split.
           ++ intros H. apply Ok_eq in H. subst h'. tauto.
           ++ intros [_ ->]. reflexivity.
Qed.
Lemma var_sound fuel lib h v h1 h' vs ms loc :
  st_is h vs ms -> consistent lib vs ms -> add_variable h v = Ok h1 ->
  components_of fuel lib (mkHost (m_name h1) (m_vars h1) (m_ddt h1) loc (m_loop h1)) v = Ok h' ->
  exists m, st_is h' (vs ++ [v]) (ms ++ [m]) /\ consistent lib (vs ++ [v]) (ms ++ [m]) /\ m_name h' = m_name h /\ m_loc h' = loc /\ m_loop h' = m_loop h /\ m_loc h1 = m_loc h.
Proof.
  intros ST CO A C. assert (LE : length vs = length ms) by (destruct CO as [F _]; eapply F2_len; eauto).
  apply (add_variable_ok h v h1 vs ms ST LE) in A as [(A1 & A2 & A3 & A4) ->]. cbn [m_name m_vars m_ddt m_loc m_loop] in C.
  apply comp_sound in C as (m & P & SF & LF & ->). cbn [m_name m_vars m_ddt m_loc m_loop] in *. exists m. split; [|split; [|auto]].
  - split; cbn; auto. now rewrite comps_snoc.
  - apply consistent_snoc; auto. split; auto. split; auto. unfold addable. rewrite keys_keyed, map_app in SF. cbn [map] in SF. tauto.
Qed.
Lemma var_complete lib h v vs ms m : st_is h vs ms -> length vs = length ms -> consistent lib (vs ++ [v]) (ms ++ [m]) ->
  exists h1, add_variable h v = Ok h1 /\ m_loc h1 = m_loc h /\
  forall loc, exists N h', st_is h' (vs ++ [v]) (ms ++ [m]) /\ forall fuel, N <= fuel -> components_of fuel lib (mkHost (m_name h1) (m_vars h1) (m_ddt h1) loc (m_loop h1)) v = Ok h'.
Proof.
  intros ST LE CO. apply consistent_snoc in CO as (CO & P & (A1 & A2 & A3 & A4 & SF & LF)); auto. eexists. split; [|split].
  - apply (add_variable_ok h v _ vs ms ST LE). split; [auto|reflexivity].
  - reflexivity.
  - intros loc. cbn [m_name m_vars m_ddt m_loc m_loop].
    destruct (comp_complete lib (mkHost (m_name h) (map keyed (vs ++ [v])) (comps vs ms) loc (m_loop h)) v m P) as (N & C).
    + cbn [m_vars m_ddt]. rewrite keys_keyed, map_app. exact SF.
    + exact LF.
    + exists N. eexists. split; [|exact C]. split; cbn; auto. now rewrite comps_snoc.
Qed.
Definition moved (vs : list field) (t : str) : list (str * str) := map (fun v => (f_local v, t)) vs.
Lemma module_sound fuel lib t : forall l h h' vs ms, each (module_var fuel lib t) h l = Ok h' -> st_is h vs ms -> consistent lib vs ms ->
  exists m2, length m2 = length l /\ st_is h' (vs ++ l) (ms ++ m2) /\ consistent lib (vs ++ l) (ms ++ m2) /\ m_name h' = m_name h /\ m_loop h' = m_loop h /\
    m_loc h' = rev (moved l t) ++ m_loc h.
Proof.
  induction l as [|v l IH]; intros h h' vs ms H ST CO; cbn [each] in H.
  - apply Ok_eq in H. subst h'. exists []. rewrite !app_nil_r. cbn. repeat split; auto; apply ST || apply CO.
  - apply b_inv in H as (h2 & H1 & H2). unfold module_var in H1. apply b_inv in H1 as (h1 & A & C). unfold locate in C.
    destruct (var_sound _ _ _ _ _ _ _ _ _ ST CO A C) as (m & ST2 & CO2 & E1 & E2 & E3 & E4).
    destruct (IH h2 h' _ _ H2 ST2 CO2) as (m2 & LE & ST3 & CO3 & F1 & F2 & F3). exists (m :: m2).
    rewrite <- !app_assoc in ST3, CO3. cbn [app] in *. cbn [length]. split; [congruence|]. split; auto. split; auto. split; [congruence|]. split; [congruence|].
    rewrite F3, E2, E4. unfold moved. cbn [map rev]. now rewrite <- app_assoc.
Qed.
Lemma host_sound fuel lib : forall l h h' vs ms, each (host_var fuel lib) h l = Ok h' -> st_is h vs ms -> consistent lib vs ms ->
  exists m2, length m2 = length l /\ st_is h' (vs ++ l) (ms ++ m2) /\ consistent lib (vs ++ l) (ms ++ m2) /\ m_name h' = m_name h /\ m_loop h' = m_loop h /\
    m_loc h' = m_loc h.
Proof.
  induction l as [|v l IH]; intros h h' vs ms H ST CO; cbn [each] in H.
  - apply Ok_eq in H. subst h'. exists []. rewrite !app_nil_r. cbn. repeat split; auto; apply ST || apply CO.
  - apply b_inv in H as (h2 & H1 & H2). unfold host_var in H1. apply b_inv in H1 as (h1 & A & C).
    assert (C' : components_of fuel lib (mkHost (m_name h1) (m_vars h1) (m_ddt h1) (m_loc h1) (m_loop h1)) v = Ok h2) by (now destruct h1).
    destruct (var_sound _ _ _ _ _ _ _ _ _ ST CO A C') as (m & ST2 & CO2 & E1 & E2 & E3 & E4).
    destruct (IH h2 h' _ _ H2 ST2 CO2) as (m2 & LE & ST3 & CO3 & F1 & F2 & F3). exists (m :: m2).
    rewrite <- !app_assoc in ST3, CO3. cbn [app] in *. cbn [length]. split; [congruence|]. split; auto. split; auto. split; [congruence|]. split; congruence.
Qed.
Lemma consistent_prefix lib vs ms : forall l m2, length vs = length ms -> consistent lib (vs ++ l) (ms ++ m2) -> consistent lib vs ms.
Proof.
  intros l. induction l as [|v l IH] using rev_ind; intros m2 LE CO.
  - assert (m2 = []). { destruct CO as [F _]. apply F2_len in F. rewrite !app_length in F. cbn in F. destruct m2; auto. cbn in F. lia. }
    subst m2. now rewrite !app_nil_r in CO.
  - destruct m2 as [|m m2 _] using rev_ind.
    { destruct CO as [F _]. apply F2_len in F. rewrite !app_length in F. cbn in F. lia. }
    assert (LL : length (vs ++ l) = length (ms ++ m2)). { destruct CO as [F _]. apply F2_len in F. rewrite !app_length in F. cbn in F. rewrite !app_length. lia. }
    rewrite !app_assoc in CO. apply consistent_snoc in CO as (CO & _); auto. eapply IH; eauto.
Qed.
Lemma module_complete lib t : forall l h vs ms m2, st_is h vs ms -> length vs = length ms -> length l = length m2 -> consistent lib (vs ++ l) (ms ++ m2) ->
  exists N h', st_is h' (vs ++ l) (ms ++ m2) /\ forall fuel, N <= fuel -> each (module_var fuel lib t) h l = Ok h'.
Proof.
  induction l as [|v l IH]; intros h vs ms m2 ST LE LL CO; destruct m2 as [|m m2]; try discriminate LL.
  - exists 0, h. rewrite !app_nil_r. auto.
  - assert (CO1 : consistent lib (vs ++ [v]) (ms ++ [m])).
    { apply (consistent_prefix lib _ _ l m2); [rewrite !app_length; cbn; lia|]. now rewrite <- !app_assoc. }
    destruct (var_complete lib h v vs ms m ST LE CO1) as (h1 & A & _ & C). destruct (C ((f_local v, t) :: m_loc h1)) as (N1 & h2 & ST2 & C1).
    destruct (IH h2 (vs ++ [v]) (ms ++ [m]) m2) as (N2 & h' & ST3 & C2); auto.
    { rewrite !app_length. cbn. lia. } { now rewrite <- !app_assoc. }
    exists (N1 + N2), h'. rewrite <- !app_assoc in ST3. split; [exact ST3|]. intros fuel LF. cbn [each]. unfold module_var at 1. rewrite A. cbn [bind]. unfold locate. rewrite C1 by lia.
    cbn [bind]. apply C2. lia.
Qed.
Lemma host_complete lib : forall l h vs ms m2, st_is h vs ms -> length vs = length ms -> length l = length m2 -> consistent lib (vs ++ l) (ms ++ m2) ->
  exists N h', st_is h' (vs ++ l) (ms ++ m2) /\ forall fuel, N <= fuel -> each (host_var fuel lib) h l = Ok h'.
Proof.
  induction l as [|v l IH]; intros h vs ms m2 ST LE LL CO; destruct m2 as [|m m2]; try discriminate LL.
  - exists 0, h. rewrite !app_nil_r. auto.
  - assert (CO1 : consistent lib (vs ++ [v]) (ms ++ [m])).
    { apply (consistent_prefix lib _ _ l m2); [rewrite !app_length; cbn; lia|]. now rewrite <- !app_assoc. }
    destruct (var_complete lib h v vs ms m ST LE CO1) as (h1 & A & _ & C). destruct (C (m_loc h1)) as (N1 & h2 & ST2 & C1).
    assert (C1' : forall fuel, N1 <= fuel -> components_of fuel lib h1 v = Ok h2) by (intros; rewrite <- C1 with (fuel := fuel) by auto; now destruct h1).
    destruct (IH h2 (vs ++ [v]) (ms ++ [m]) m2) as (N2 & h' & ST3 & C2); auto.
    { rewrite !app_length. cbn. lia. } { now rewrite <- !app_assoc. }
    exists (N1 + N2), h'. rewrite <- !app_assoc in ST3. split; [exact ST3|]. intros fuel LF. cbn [each]. unfold host_var at 1. rewrite A. cbn [bind]. rewrite C1' by lia.
    cbn [bind]. apply C2. lia.
Qed.

(* ---- loop variables ---- *)
Lemma each_loop_ok : forall l d d', each add_loop d l = Ok d' -> (forall e, In e l -> fst e = f_std (leaf (snd e))) ->
  d' = d ++ l /\ NoDup (map (fun e => low (leaf (snd e))) l) /\ forall e, In e l -> ~ In (low (leaf (snd e))) (map (fun e => low (leaf (snd e))) d).
Proof.
  induction l as [|[s o] l IH]; intros d d' H K; cbn [each] in H.
  - apply Ok_eq in H. subst. rewrite app_nil_r. split; auto. split; [constructor|intros e []].
  - apply b_inv in H as (d1 & H1 & H2). unfold add_loop in H1. cbn [fst snd] in H1. destruct (mem s (map fst d)); [discriminate|].
    unfold add_new in H1. destruct (has_local d (f_local (leaf o))) eqn:HL; [discriminate|]. apply Ok_eq in H1. subst d1.
    assert (K0 := K (s, o) (or_introl eq_refl)). cbn [fst snd] in K0. rewrite <- K0 in H2.
    apply IH in H2 as (-> & ND & NI); [|intros e I; apply K; now right]. unfold has_local in HL. apply mem_not in HL.
    split; [now rewrite <- app_assoc|]. split.
    + cbn [map snd]. constructor; auto. intros I. apply in_map_iff in I as (e & E & I). apply (NI e I). rewrite E, map_app. apply in_or_app. right. now left.
    + intros e [<-|I]; [exact HL|]. intros J. apply (NI e I). rewrite map_app. apply in_or_app. now left.
Qed.
Lemma each_loop_complete : forall l d, (forall e, In e l -> fst e = f_std (leaf (snd e))) -> NoDup (map fst (d ++ l)) -> NoDup (map (fun e => low (leaf (snd e))) (d ++ l)) ->
  each add_loop d l = Ok (d ++ l).
Proof.
  induction l as [|[s o] l IH]; intros d K N1 N2; cbn [each]; [now rewrite app_nil_r|].
  assert (K0 := K (s, o) (or_introl eq_refl)). cbn [fst snd] in K0.
  assert (A : add_loop d (s, o) = Ok (d ++ [(s, o)])).
  { unfold add_loop. cbn [fst snd]. assert (mem s (map fst d) = false) as ->.
    { apply mem_not. intros I. rewrite map_app in N1. apply nodup_app_iff in N1 as (_ & _ & X). apply (X s I). now left. }
    unfold add_new. assert (has_local d (f_local (leaf o)) = false) as ->.
    { unfold has_local. apply mem_not. intros I. rewrite map_app in N2. apply nodup_app_iff in N2 as (_ & _ & X). eapply X; [exact I|]. now left. }
    now rewrite <- K0. }
  rewrite A. cbn [bind]. rewrite IH; [now rewrite <- app_assoc|intros e I; apply K; now right|now rewrite <- app_assoc|now rewrite <- app_assoc].
Qed.
Definition loop_list (vars : list field) (d : ddict) : ddict :=
  map (fun v => (f_std v, OVar v)) (List.filter (fun v => is_loop (f_std v)) vars) ++ List.filter (fun e => is_loop (fst e)) d.
Definition looped (old : option ddict) (lv : ddict) : option ddict := match lv with [] => old | _ => Some lv end.
Lemma nodup_map_filter {A B} (f : A -> B) (p : A -> bool) l : NoDup (map f l) -> NoDup (map f (List.filter p l)).
Proof.
  induction l as [|x l IH]; cbn; auto. intros H. apply NoDup_cons_iff in H as [N H]. destruct (p x); cbn; auto. constructor; auto.
  intros I. apply N. apply in_map_iff in I as (y & E & I). apply filter_In in I as [I _]. rewrite <- E. now apply in_map.
Qed.
Lemma loop_keys vars vs ms e : In e (loop_list vars (comps vs ms)) -> fst e = f_std (leaf (snd e)).
Proof.
  unfold loop_list, comps. rewrite in_app_iff, in_map_iff, filter_In, in_flat_map. intros [(v & <- & _)|((vm & _ & I) & _)]; auto.
  apply in_map_iff in I as (c & <- & _). reflexivity.
Qed.
Lemma set_loop_ok h vars h' vs ms : m_ddt h = comps vs ms -> set_loop h vars = Ok h' ->
  h' = mkHost (m_name h) (m_vars h) (m_ddt h) (m_loc h) (looped (m_loop h) (loop_list vars (m_ddt h))) /\
  NoDup (map (fun e => low (leaf (snd e))) (loop_list vars (m_ddt h))).
Proof.
  intros E. unfold set_loop. fold (loop_list vars (m_ddt h)). cbv zeta. rewrite E. assert (K := loop_keys vars vs ms). revert K. generalize (loop_list vars (comps vs ms)). intros lv K.
  destruct lv as [|e lv].
  - intros H. apply Ok_eq in H. subst h'. split; [rewrite <- E; now destruct h|constructor].
  - intros H. apply b_inv in H as (d & H & H2). apply Ok_eq in H2. subst h'. apply each_loop_ok in H as (-> & ND & _); auto.
Qed.
Lemma set_loop_complete h vars vs ms : m_ddt h = comps vs ms -> NoDup (map fst (loop_list vars (m_ddt h))) -> NoDup (map (fun e => low (leaf (snd e))) (loop_list vars (m_ddt h))) ->
  set_loop h vars = Ok (mkHost (m_name h) (m_vars h) (m_ddt h) (m_loc h) (looped (m_loop h) (loop_list vars (m_ddt h)))).
Proof.
  intros E N1 N2. unfold set_loop. fold (loop_list vars (m_ddt h)). cbv zeta. rewrite E in *. assert (K := loop_keys vars vs ms). revert K N1 N2. generalize (loop_list vars (comps vs ms)). intros lv K N1 N2.
  destruct lv as [|e lv]; [rewrite <- E; now destruct h|]. rewrite (each_loop_complete (e :: lv) []); auto.
Qed.
Lemma loop_nodup lib vs l ms m2 : length vs = length ms -> consistent lib (vs ++ l) (ms ++ m2) ->
  NoDup (map fst (loop_list l (comps (vs ++ l) (ms ++ m2)))) /\
  (NoDup (map (fun e => low (leaf (snd e))) (loop_list l (comps (vs ++ l) (ms ++ m2)))) <->
   forall v r c, In v l -> loop_std (f_std v) -> In r (vs ++ l) -> component_of lib r c -> loop_std (f_std c) -> lower (f_local v) <> lower (f_local c)).
Proof.
  intros LE (F & N1 & N2 & N3 & N4). assert (LL := F2_len _ _ _ F). assert (CI := comps_in lib _ _ F). unfold loop_list.
  change (fun v0 : field => lower (f_local v0)) with low in N3, N4. apply nodup_app_iff in N1 as (P1 & P2 & P3).
  rewrite map_app in P1, N3. apply nodup_app_iff in P1 as (_ & P1 & _). apply nodup_app_iff in N3 as (_ & N3 & _).
  rewrite !map_app, !nodup_app_iff, !map_map. cbn [fst snd leaf]. split.
  - split; [now apply nodup_map_filter|]. split; [apply nodup_map_filter; now rewrite keys_comps|].
    intros s I J. apply in_map_iff in I as (v & <- & I). apply filter_In in I as [I _]. apply in_map_iff in J as (e & E & J). apply filter_In in J as [J _].
    apply (P3 (f_std v)); [rewrite map_app; apply in_or_app; right; now apply in_map|]. rewrite <- (keys_comps (vs ++ l) (ms ++ m2)) by auto. rewrite <- E. now apply in_map.
  - split.
    + intros (_ & _ & D) v r c I LV IR C LC E. apply (D (low v)).
      * apply in_map_iff. exists v. split; auto. apply filter_In. split; auto. now apply loop_iff.
      * apply in_map_iff. exists (ent r c). split; [symmetry; exact E|]. apply filter_In. split; [apply CI; eauto|]. now apply loop_iff.
    + intros D. split; [now apply nodup_map_filter|]. split; [apply nodup_map_filter; rewrite <- (lows_comps (vs ++ l)) in N4; auto|].
      intros s I J. apply in_map_iff in I as (v & <- & I). apply filter_In in I as [I LV]. apply in_map_iff in J as (e & E & J). apply filter_In in J as [J LC].
      apply CI in J as (r & c & IR & C & ->). apply (D v r c I); auto; now apply loop_iff.
Qed.
(* ---- one table ---- *)
Definition loc_of (t : table) : list (str * str) := if str_eqb (t_type t) (L "module") then moved (t_vars t) (t_title t) else [].
Definition mod_type (t : table) : Prop := t_type t = L "module".
Definition host_type (t : table) : Prop := t_type t = L "host".
Lemma st_name_it h n vs ms : st_is h vs ms -> st_is (name_it h n) vs ms.
Proof. unfold name_it, st_is. destruct (m_name h); auto. Qed.
Lemma table_sound fuel lib t h h' vs ms : add_table fuel lib h t = Ok h' -> st_is h vs ms -> consistent lib vs ms ->
  exists m2, length m2 = length (t_vars t) /\ st_is h' (vs ++ t_vars t) (ms ++ m2) /\ consistent lib (vs ++ t_vars t) (ms ++ m2) /\
    m_name h' = named (m_name h) [t] /\ m_loc h' = rev (loc_of t) ++ m_loc h /\ (mod_type t \/ host_type t) /\
    (mod_type t -> m_loop h' = m_loop h) /\
    (host_type t -> m_loop h' = looped (m_loop h) (loop_list (t_vars t) (m_ddt h')) /\
      forall v r c, In v (t_vars t) -> loop_std (f_std v) -> In r (vs ++ t_vars t) -> component_of lib r c -> loop_std (f_std c) -> lower (f_local v) <> lower (f_local c)).
Proof.
  intros H ST CO. assert (LE : length vs = length ms) by (destruct CO as [F _]; eapply F2_len; eauto). unfold add_table in H. unfold loc_of, mod_type, host_type.
  destruct (str_eqb (t_type t) (L "module")) eqn:TM.
  - apply str_eqb_eq in TM. destruct (module_sound _ _ _ _ _ _ _ _ H ST CO) as (m2 & LL & ST2 & CO2 & E1 & E2 & E3). exists m2.
    split; [auto|]. split; [auto|]. split; [auto|]. split.
    { rewrite E1. unfold named. cbn [first_host]. rewrite TM. destruct (m_name h); reflexivity. }
    split; [auto|]. split; [auto|]. split; [auto|]. intros X. rewrite TM in X. discriminate X.
  - destruct (str_eqb (t_type t) (L "host")) eqn:TH; [|discriminate]. apply str_eqb_eq in TH. apply b_inv in H as (h1 & H & H2).
    destruct (host_sound _ _ _ _ _ _ _ H (st_name_it _ _ _ _ ST) CO) as (m2 & LL & ST2 & CO2 & E1 & E2 & E3).
    destruct (set_loop_ok h1 _ _ _ _ (proj2 ST2) H2) as [-> ND]. exists m2. cbn [m_name m_vars m_ddt m_loc m_loop].
    split; [auto|]. split; [exact ST2|]. split; [auto|]. split.
    { rewrite E1. unfold named, name_it. cbn [first_host]. assert (str_eqb (t_type t) (L "host") = true) as -> by now apply str_eqb_eq. destruct (m_name h) eqn:MN; cbn; auto. }
    split; [rewrite E3; unfold name_it; destruct (m_name h); reflexivity|]. split; [auto|].
    split; [intros X; rewrite TH in X; discriminate X|]. intros _. split.
    + f_equal. rewrite E2. unfold name_it. destruct (m_name h); reflexivity.
    + rewrite (proj2 ST2) in ND. apply (proj2 (loop_nodup lib vs _ ms m2 LE CO2)). exact ND.
Qed.
Lemma table_complete lib t h vs ms m2 : st_is h vs ms -> length vs = length ms -> length (t_vars t) = length m2 -> consistent lib (vs ++ t_vars t) (ms ++ m2) ->
  mod_type t \/ host_type t ->
  (host_type t -> forall v r c, In v (t_vars t) -> loop_std (f_std v) -> In r (vs ++ t_vars t) -> component_of lib r c -> loop_std (f_std c) -> lower (f_local v) <> lower (f_local c)) ->
  exists N h', st_is h' (vs ++ t_vars t) (ms ++ m2) /\ forall fuel, N <= fuel -> add_table fuel lib h t = Ok h'.
Proof.
  intros ST LE LL CO TY LO. unfold add_table. destruct (str_eqb (t_type t) (L "module")) eqn:TM.
  - destruct (module_complete lib (t_title t) (t_vars t) h vs ms m2 ST LE LL CO) as (N & h' & A & B). exists N, h'. split; [exact A|exact B].
  - assert (TH : host_type t) by (destruct TY as [X|X]; auto; unfold mod_type in X; rewrite X in TM; discriminate TM).
    assert (str_eqb (t_type t) (L "host") = true) as -> by now apply str_eqb_eq.
    destruct (host_complete lib (t_vars t) (name_it h (t_name t)) vs ms m2 (st_name_it _ _ _ _ ST) LE LL CO) as (N & h1 & ST2 & B).
    destruct (loop_nodup lib vs _ ms m2 LE CO) as [N1 N2]. exists N.
    exists (mkHost (m_name h1) (m_vars h1) (m_ddt h1) (m_loc h1) (looped (m_loop h1) (loop_list (t_vars t) (m_ddt h1)))). split; [exact ST2|].
    intros fuel LF. rewrite B by auto. cbn [bind]. apply (set_loop_complete h1 (t_vars t) _ _ (proj2 ST2)); rewrite (proj2 ST2); [exact N1|apply N2; exact (LO TH)].
Qed.
(* ---- all tables ---- *)
Lemma named_step o t ts : named (named o [t]) ts = named o (t :: ts).
Proof. unfold named. destruct o; auto. cbn [first_host]. destruct (str_eqb (t_type t) (L "host")); reflexivity. Qed.
Lemma loops_cons lib vs t ts : loops_distinct lib vs (t :: ts) <->
  (host_type t -> forall v r c, In v (t_vars t) -> loop_std (f_std v) -> In r (vs ++ t_vars t) -> component_of lib r c -> loop_std (f_std c) -> lower (f_local v) <> lower (f_local c)) /\
  loops_distinct lib (vs ++ t_vars t) ts.
Proof.
  unfold loops_distinct. split.
  - intros H. split.
    + intros TH v r c I LV IR. apply (H [] t ts v r c); auto. cbn. unfold table_vars. cbn. now rewrite app_nil_r.
    + intros a t' b v r c -> TH I LV IR. apply (H (t :: a) t' b v r c); auto. cbn [app]. unfold table_vars in *. cbn [map List.concat]. now rewrite <- app_assoc in IR.
  - intros [H1 H2] a t' b v r c E TH I LV IR. destruct a as [|x a]; cbn [app] in E; injection E as -> ->.
    + apply H1; auto. unfold table_vars in IR. cbn in IR. now rewrite app_nil_r in IR.
    + apply (H2 a t' b v r c eq_refl TH I LV). cbn [app] in IR. unfold table_vars in *. cbn [map List.concat] in IR. now rewrite <- app_assoc.
Qed.
Lemma tables_sound fuel lib : forall ts h h' vs ms, each (add_table fuel lib) h ts = Ok h' -> st_is h vs ms -> consistent lib vs ms ->
  exists m2, length m2 = length (table_vars ts) /\ st_is h' (vs ++ table_vars ts) (ms ++ m2) /\ consistent lib (vs ++ table_vars ts) (ms ++ m2) /\
    m_name h' = named (m_name h) ts /\ m_loc h' = rev (flat_map loc_of ts) ++ m_loc h /\ Forall (fun t => mod_type t \/ host_type t) ts /\ loops_distinct lib vs ts.
Proof.
  induction ts as [|t ts IH]; intros h h' vs ms H ST CO; cbn [each] in H.
  - apply Ok_eq in H. subst h'. exists []. unfold table_vars. cbn. rewrite !app_nil_r. split; auto. split; auto. split; auto. split; [unfold named; now destruct (m_name h)|].
    split; auto. split; auto. intros a t b v r c E. destruct a; discriminate E.
  - apply b_inv in H as (h1 & H1 & H2). destruct (table_sound _ _ _ _ _ _ _ H1 ST CO) as (m2 & LL & ST2 & CO2 & E1 & E2 & E3 & E4 & E5).
    destruct (IH _ _ _ _ H2 ST2 CO2) as (m3 & LL3 & ST3 & CO3 & F1 & F2 & F3 & F4). exists (m2 ++ m3). unfold table_vars in *. cbn [map List.concat].
    rewrite <- !app_assoc in ST3, CO3. split; [rewrite !app_length; congruence|]. split; auto. split; auto. split; [rewrite F1, E1; apply named_step|].
    split; [rewrite F2, E2; cbn [flat_map]; rewrite rev_app_distr; now rewrite <- app_assoc|]. split; [now constructor|]. apply loops_cons. split; auto. intros TH. now apply E5.
Qed.
Lemma tables_complete lib : forall ts h vs ms m2, st_is h vs ms -> length vs = length ms -> length (table_vars ts) = length m2 -> consistent lib (vs ++ table_vars ts) (ms ++ m2) ->
  Forall (fun t => mod_type t \/ host_type t) ts -> loops_distinct lib vs ts ->
  exists N h', st_is h' (vs ++ table_vars ts) (ms ++ m2) /\ forall fuel, N <= fuel -> each (add_table fuel lib) h ts = Ok h'.
Proof.
  induction ts as [|t ts IH]; intros h vs ms m2 ST LE LL CO TY LO.
  - unfold table_vars in *. cbn in *. destruct m2; [|discriminate]. exists 0, h. rewrite !app_nil_r. auto.
  - apply loops_cons in LO as [L1 L2]. inversion TY as [|? ? T1 T2]; subst. unfold table_vars in *. cbn [map List.concat] in *. rewrite app_length in LL.
    rewrite <- (firstn_skipn (length (t_vars t)) m2) in CO |- *. set (ma := firstn (length (t_vars t)) m2) in *. set (mb := skipn (length (t_vars t)) m2) in *.
    assert (LA : length (t_vars t) = length ma) by (subst ma; rewrite firstn_length; lia).
    assert (LB : length (List.concat (map t_vars ts)) = length mb) by (subst mb; rewrite skipn_length; lia).
    rewrite !app_assoc in CO. assert (CO1 : consistent lib (vs ++ t_vars t) (ms ++ ma)) by (apply (consistent_prefix _ _ _ (List.concat (map t_vars ts)) mb); auto; rewrite !app_length; lia).
    destruct (table_complete lib t h vs ms ma ST LE LA CO1 T1 L1) as (N1 & h1 & ST1 & C1).
    destruct (IH h1 (vs ++ t_vars t) (ms ++ ma) mb ST1) as (N2 & h' & ST2 & C2); auto; [rewrite !app_length; lia|].
    exists (N1 + N2), h'. rewrite !app_assoc. split; auto. intros fuel LF. cbn [each]. rewrite C1 by lia. cbn [bind]. apply C2. lia.
Qed.
(* ---- the whole ---- *)
Lemma consistent_nil lib : consistent lib [] [].
Proof. split; [constructor|]. split; [constructor|]. split; [intros c []|]. split; constructor. Qed.
Lemma st_nil name : st_is (mkHost name [] [] [] None) [] [].
Proof. split; reflexivity. Qed.
Definition all_loc (consts : bool) (n : str) (ts : list table) : list (str * str) :=
  (if consts then [(f_local (constituents_object n), cap_name n)] else []) ++ rev (flat_map loc_of ts).
Lemma build_sound fuel lib consts name ts h : build fuel lib consts name ts = Ok h ->
  exists n ms, named name ts = Some n /\ st_is h (all_vars consts n ts) ms /\ consistent lib (all_vars consts n ts) ms /\ m_name h = Some n /\
    m_loc h = all_loc consts n ts /\ Forall (fun t => mod_type t \/ host_type t) ts /\ loops_distinct lib [] ts.
Proof.
  intros H. unfold build in H. apply b_inv in H as (h1 & H1 & H).
  destruct (tables_sound _ _ _ _ _ _ _ H1 (st_nil name) (consistent_nil lib)) as (ms & LL & ST & CO & E1 & E2 & E3 & E4). cbn [app m_name m_loc] in *.
  rewrite app_nil_r in E2. destruct (m_name h1) as [n|] eqn:MN; [|discriminate]. exists n. unfold all_vars, all_loc. destruct consts.
  - change const_obj with constituents_object in H. apply b_inv in H as (h2 & A & C). unfold locate in C.
    assert (C' : components_of fuel lib {| m_name := m_name h2; m_vars := m_vars h2; m_ddt := m_ddt h2; m_loc := (f_local (constituents_object n), cap_name n) :: m_loc h2; m_loop := m_loop h2 |} (constituents_object n) = Ok h).
    { unfold components_of. cbn [f_ddt constituents_object]. destruct (get (f_type (constituents_object n)) lib) eqn:G; auto. unfold collect_fields, collect_var in C. rewrite G in C. discriminate C. }
    destruct (var_sound _ _ _ _ _ _ _ _ _ ST CO A C') as (m & ST2 & CO2 & F1 & F2 & F3 & F4). exists (ms ++ [m]).
    split; [now symmetry|]. split; [auto|]. split; [auto|]. split; [congruence|]. split; [rewrite F2, F4, E2; reflexivity|]. auto.
  - apply Ok_eq in H. subst h1. exists ms. rewrite app_nil_r. cbn [app]. split; [now symmetry|]. auto 10.
Qed.
Lemma build_complete lib consts name ts n ms : named name ts = Some n -> consistent lib (all_vars consts n ts) ms ->
  Forall (fun t => mod_type t \/ host_type t) ts -> loops_distinct lib [] ts -> exists N, forall fuel, N <= fuel -> exists h, build fuel lib consts name ts = Ok h.
Proof.
  intros NM CO TY LO. unfold all_vars in CO. set (mt := firstn (length (table_vars ts)) ms).
  assert (LE := CO). destruct LE as [LE _]. apply F2_len in LE. rewrite app_length in LE.
  assert (LT : length (table_vars ts) = length mt) by (subst mt; rewrite firstn_length; lia).
  assert (CT : consistent lib ([] ++ table_vars ts) ([] ++ mt)).
  { cbn [app]. apply (consistent_prefix lib _ _ (if consts then [constituents_object n] else []) (skipn (length (table_vars ts)) ms)); auto. subst mt. rewrite firstn_skipn. exact CO. }
  destruct (tables_complete lib ts (mkHost name [] [] [] None) [] [] mt (st_nil name) eq_refl LT CT TY LO) as (N1 & h1 & ST1 & C1). cbn [app] in *.
  assert (MN : m_name h1 = Some n).
  { destruct (tables_sound N1 lib ts _ _ _ _ (C1 N1 (le_n _)) (st_nil name) (consistent_nil lib)) as (m2 & _ & _ & _ & E1 & _). cbn [m_name] in E1. congruence. }
  destruct consts.
  - assert (LM : exists m, ms = mt ++ [m]).
    { cbn in LE. assert (E := firstn_skipn (length (table_vars ts)) ms). assert (LS : length (skipn (length (table_vars ts)) ms) = 1) by (rewrite skipn_length; lia).
      fold mt in E. destruct (skipn (length (table_vars ts)) ms) as [|m [|]]; try discriminate LS. exists m. now symmetry. }
    destruct LM as (m & EM). rewrite EM in CO. destruct (var_complete lib h1 (constituents_object n) _ _ m ST1 LT CO) as (h2 & A & EL & C). destruct (C ((f_local (constituents_object n), cap_name n) :: m_loc h2)) as (N2 & h3 & ST3 & C3).
    exists (N1 + N2). intros fuel LF. exists h3. unfold build. change const_obj with constituents_object. rewrite C1 by lia. cbn [bind]. rewrite MN, A. cbn [bind]. unfold locate. specialize (C3 fuel ltac:(lia)). revert C3.
    unfold components_of. cbn [f_ddt constituents_object]. destruct (get _ lib); [auto|discriminate].
  - exists N1. intros fuel LF. exists h1. unfold build. rewrite C1 by lia. cbn [bind]. now rewrite MN.
Qed.
