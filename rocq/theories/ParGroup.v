From Coq Require Import List Ascii String ZArith Bool Lia Arith.
From Verif Require Import PyStr SelModel CheckProofs ActProofs ParModel ParSpec ParProofs ParProps.
Import ListNotations.
Open Scope nat_scope. Open Scope list_scope.

Lemma assoc_in {A} (l : list (str * A)) n v : assoc l n = Some v -> In (n, v) l.
Proof.
  induction l as [|[k w] l IH]; cbn [assoc]; [discriminate|]. destruct (str_eqb k n) eqn:E; [apply str_eqb_eq in E; intros [= <-]; subst; now left|].
  intros H. right. auto.
Qed.
Lemma assoc_nodup {A} (l : list (str * A)) n v : NoDup (map fst l) -> In (n, v) l -> assoc l n = Some v.
Proof.
  induction l as [|[k w] l IH]; cbn [assoc map fst]; intros N I; [destruct I|]. inversion N as [|x y NI ND]; subst.
  destruct I as [[= -> ->]|I]; [now rewrite str_eqb_refl|]. destruct (str_eqb k n) eqn:E; [|auto].
  apply str_eqb_eq in E. subst. exfalso. apply NI. now apply (in_map fst) in I.
Qed.
Lemma assoc_key {A} (l : list (str * A)) n : assoc l n <> None <-> In n (map fst l).
Proof.
  induction l as [|[k w] l IH]; cbn [assoc map fst In]; [tauto|]. destruct (str_eqb k n) eqn:E.
  - apply str_eqb_eq in E. split; auto. discriminate.
  - apply str_eqb_neq in E. rewrite IH. intuition.
Qed.
Lemma put_same {A} (l : list (str * A)) n v : assoc (put l n v) n = Some v.
Proof.
  induction l as [|[k w] l IH]; cbn [put assoc]; [now rewrite str_eqb_refl|]. destruct (str_eqb k n) eqn:E; cbn [assoc]; rewrite E; auto.
Qed.
Lemma put_other {A} (l : list (str * A)) n m v : m <> n -> assoc (put l n v) m = assoc l m.
Proof.
  intros N. induction l as [|[k w] l IH]; cbn [put assoc].
  - assert (E : str_eqb n m = false) by (apply str_eqb_neq; congruence). now rewrite E.
  - destruct (str_eqb k n) eqn:E; cbn [assoc].
    + apply str_eqb_eq in E. subst. assert (X : str_eqb n m = false) by (apply str_eqb_neq; congruence). now rewrite X.
    + destruct (str_eqb k m); auto.
Qed.
Lemma put_keys {A} (l : list (str * A)) n v x : In x (map fst (put l n v)) <-> In x (map fst l) \/ x = n.
Proof.
  induction l as [|[k w] l IH]; cbn [put map fst In]; [intuition|]. destruct (str_eqb k n) eqn:E; cbn [map fst In].
  - apply str_eqb_eq in E. subst. intuition.
  - rewrite IH. intuition.
Qed.
Lemma put_nodup {A} (l : list (str * A)) n v : NoDup (map fst l) -> NoDup (map fst (put l n v)).
Proof.
  induction l as [|[k w] l IH]; cbn [put map fst]; intros N; [constructor; [auto|constructor]|]. inversion N as [|x y NI ND]; subst.
  destruct (str_eqb k n) eqn:E; cbn [map fst]; constructor; auto. rewrite put_keys. apply str_eqb_neq in E. intuition.
Qed.
Lemma str_dec (a b : str) : {a = b} + {a <> b}.
Proof. destruct (str_eqb a b) eqn:E; [left; now apply str_eqb_eq|right; now apply str_eqb_neq]. Qed.
Lemma mem_s_in x l : mem_s x l = true <-> In x l.
Proof. apply mem_str_in. Qed.
Lemma mem_s_out x l : mem_s x l = false <-> ~ In x l.
Proof. apply mem_str_out. Qed.

(* ---------------------------------------------------------------- parents *)
Lemma by_local_in defs n p : by_local defs n = Some p -> exists hv, In (p, hv) defs /\ hv_local hv = n.
Proof.
  unfold by_local. intros H. apply assoc_in, in_rev, in_map_iff in H as ([q hv] & E & I). cbn in E. injection E as <- <-. eauto.
Qed.
Lemma colons_called (b : str) i : called b (b ++ colons i).
Proof.
  destruct i as [|i]; [left; cbn; apply app_nil_r|]. right. exists (List.repeat (L ":") (S i)). split; [discriminate|]. split; [|reflexivity].
  apply Forall_forall. intros x I. now apply List.repeat_spec in I.
Qed.
Lemma find_parent_some inv n p : find_parent inv n = Some p -> exists i, inv (n ++ colons i) = Some p.
Proof.
  unfold find_parent. induction (seq 0 16) as [|i l IH]; cbn [fold_right]; [discriminate|]. destruct (inv (n ++ colons i)) eqn:E; [|auto].
  intros [= <-]. eauto.
Qed.
Definition named (defs : hostdefs) (b p : str) : Prop := exists hp, assoc defs p = Some hp /\ called b (hv_local hp).
Lemma find_parent_named defs n p : NoDup (map fst defs) -> find_parent (by_local defs) n = Some p -> named defs n p.
Proof.
  intros N H. apply find_parent_some in H as (i & H). apply by_local_in in H as (hv & I & E). exists hv. split; [now apply assoc_nodup|].
  rewrite E. apply colons_called.
Qed.
Lemma colon_subs cs : cs <> [] -> Forall (fun c => c = L ":") cs -> subs (join (L ",") cs) [].
Proof.
  intros N F. induction F as [|c cs C F IH]; [congruence|]. subst c.
  assert (X : sub (L ":") []) by (apply (sub_more [] [] [] []); [constructor|apply sub_one; constructor]).
  destruct cs as [|d cs]; [now apply subs_one|]. change (join (L ",") (L ":" :: d :: cs)) with (L ":" ++ ","%char :: join (L ",") (d :: cs)).
  apply (subs_more (L ":") [] (join (L ",") (d :: cs)) []); auto. apply IH. discriminate.
Qed.
Lemma called_ref b n : name b -> called b n -> ref n b [].
Proof.
  intros N [-> | (cs & NE & F & ->)]; [now apply ref_one, comp_name|]. apply ref_one, comp_subs; auto. now apply colon_subs.
Qed.
(* what a text refers to is unique *)
Lemma ref_unique s b i b' i' : ref s b i -> ref s b' i' -> b = b' /\ forall x, In x i <-> In x i'.
Proof.
  intros R R'. apply C142_parents_and_indices in R as (j & E & _ & Q), R' as (j' & E' & _ & Q'). rewrite E in E'. injection E' as <- <-.
  split; auto. intros x. now rewrite <- Q, Q'.
Qed.

Section Inv.
Variable defs0 : hostdefs.
Hypothesis ND : NoDup (map fst defs0).
Hypothesis REF : forall n hv, assoc defs0 n = Some hv -> exists b i, ref (hv_local hv) b i.
Let inv := by_local defs0.

(* the host variable [v] is a part of the variable [p] *)
Definition part_of (v p : str) : Prop := exists hv b i, assoc defs0 v = Some hv /\ ref (hv_local hv) b i /\ find_parent inv b = Some p.
(* the host variable [p] is used in a subscript of [v] *)
Definition indexes (v p : str) : Prop := exists hv b i x, assoc defs0 v = Some hv /\ ref (hv_local hv) b i /\ In x i /\ find_parent inv x = Some p.
Lemma part_of_fun v p p' : part_of v p -> part_of v p' -> p = p'.
Proof.
  intros (h & b & i & A & R & F) (h' & b' & i' & A' & R' & F'). rewrite A in A'. injection A' as <-. destruct (ref_unique _ _ _ _ _ R R') as [<- _]. congruence.
Qed.

Definition defs_ok (d : hostdefs) : Prop :=
  map fst d = map fst defs0 /\
  forall v hv, assoc d v = Some hv -> exists hv0, assoc defs0 v = Some hv0 /\ hv_dims hv = hv_dims hv0 /\
    (hv_local hv = hv_local hv0 \/ (name (hv_local hv) /\ called (hv_local hv) (hv_local hv0))).
Lemma defs_ok_start : defs_ok defs0.
Proof. split; auto. intros v hv E. exists hv. auto. Qed.
Lemma defs_ref d v hv hv0 b i : defs_ok d -> assoc d v = Some hv -> assoc defs0 v = Some hv0 -> ref (hv_local hv0) b i ->
  exists js, parents_and_indices (hv_local hv) = Ok (b, js) /\ forall x, In x js <-> In x i.
Proof.
  intros [_ D] E E0 R. destruct (D v hv E) as (h & H1 & _ & H2). rewrite E0 in H1. injection H1 as <-. destruct H2 as [H2|[N C]].
  - rewrite H2. apply C142_parents_and_indices in R as (js & P & _ & Q). eauto.
  - pose proof (called_ref _ _ N C) as R'. destruct (ref_unique _ _ _ _ _ R R') as [-> Q].
    assert (RN : ref (hv_local hv) (hv_local hv) []) by now apply ref_one, comp_name.
    apply C142_parents_and_indices in RN as (js & P & _ & Q'). exists js. split; auto. intros x. rewrite Q'. symmetry. apply Q.
Qed.
Lemma put_map_fst {A} (l : list (str * A)) n v : In n (map fst l) -> map fst (put l n v) = map fst l.
Proof.
  induction l as [|[k w] l IH]; cbn [put map fst In]; [tauto|]. destruct (str_eqb k n) eqn:E; auto. cbn [map fst]. intros [->|I]; [rewrite str_eqb_refl in E; discriminate|].
  now rewrite IH.
Qed.
Lemma defs_put d p v n : defs_ok d -> assoc d p = Some v -> name n -> find_parent inv n = Some p -> defs_ok (put d p (mkHV n (hv_dims v))).
Proof.
  intros [K D] E N F. split.
  - rewrite put_map_fst; auto. apply assoc_key. congruence.
  - intros w hw H. destruct (str_dec w p) as [->|NE].
    + rewrite put_same in H. injection H as <-. cbn. destruct (D p v E) as (h0 & H0 & H1 & _). exists h0. split; auto. split; auto. right. split; auto.
      apply find_parent_named in F as (hp & H & C); auto. congruence.
    + rewrite put_other in H; auto.
Qed.

Lemma fold_st_inv {A} (P : gst -> Prop) (f : gst -> A -> res gst) l : (forall st x st', P st -> In x l -> f st x = Ok st' -> P st') ->
  forall st st', P st -> fold_st f l st = Ok st' -> P st'.
Proof.
  induction l as [|x l IH]; cbn [fold_st]; intros H st st' I E; [injection E as <-; auto|]. apply bind_ok in E as (s & E1 & E2).
  eapply IH; [|eapply H; eauto; now left|exact E2]. intros; eapply H; eauto. now right.
Qed.
Lemma dims_only args l : forall st st', fold_st (parent_dim args) l st = Ok st' ->
  g_known st' = g_known st /\ g_par st' = g_par st /\ g_defs st' = g_defs st /\ (forall x, In x (g_add st) -> In x (g_add st')) /\
  (forall b, In b l -> py_int (lower b) = None -> In (lower b) (map fst (g_known st)) \/ In (lower b) (g_add st') \/ In (lower b) args).
Proof.
  induction l as [|b l IH]; cbn [fold_st]; intros st st' E; [injection E as <-; repeat split; auto; intros ? []|].
  apply bind_ok in E as (s & E1 & E2). apply IH in E2 as (H1 & H2 & H3 & H4 & H5).
  assert (S : g_known s = g_known st /\ g_par s = g_par st /\ g_defs s = g_defs st /\ (forall x, In x (g_add st) -> In x (g_add s)) /\
     (py_int (lower b) = None -> In (lower b) (map fst (g_known st)) \/ In (lower b) (g_add s) \/ In (lower b) args)).
  { unfold parent_dim in E1. cbv zeta in E1. destruct (py_int (lower b)); [injection E1 as <-; repeat split; auto; discriminate|].
    destruct (mem_s (lower b) (map fst (g_known st))) eqn:K; [injection E1 as <-; repeat split; auto; apply mem_s_in in K; auto|].
    destruct (mem_s (lower b) (g_add st ++ args)) eqn:A; [injection E1 as <-; repeat split; auto; apply mem_s_in, in_app_or in A; tauto|].
    destruct (mem_s (lower b) (map fst (g_defs st))); [|discriminate]. injection E1 as <-. cbn. repeat split; auto.
    - intros x X. apply in_or_app. auto.
    - intros _. right. left. apply in_or_app. right. now left. }
  destruct S as (S1 & S2 & S3 & S4 & S5). rewrite H1, H2, H3, S1, S2, S3. repeat split; auto.
  intros c [<-|I] P; [|rewrite <- S1; now apply H5]. destruct (S5 P) as [X|[X|X]]; auto.
Qed.

(* history: the variables visited with their intents, the variables used as indices *)
Record good (st : gst) (H : list (str * intent)) (U : list str) : Prop := {
  k_defs : defs_ok (g_defs st);
  k_known : forall v p, assoc (g_known st) v = Some p -> part_of v p /\ assoc (g_par st) p <> None;
  k_hist : forall v i, In (v, i) H -> exists p q, assoc (g_known st) v = Some p /\ assoc (g_par st) p = Some q /\ (i <> IIn -> q <> IIn) /\ (q = IOut -> i = IOut);
  k_all : forall v p, assoc (g_known st) v = Some p -> exists i, In (v, i) H;
  k_idx : forall p, In p U -> exists q, assoc (g_par st) p = Some q /\ q <> IOut;
  k_min : forall p q, assoc (g_par st) p = Some q -> q <> IIn -> exists v i, In (v, i) H /\ assoc (g_known st) v = Some p /\ i <> IIn;
  k_nd : NoDup (map fst (g_par st)) }.

Lemma touch_main args st H U var i b st' : good st H U -> name b ->
  (forall p, find_parent inv b = Some p -> part_of var p) ->
  (assoc (g_known st) var = None \/ In (var, i) H) ->
  touch inv args var i b st b = Ok st' ->
  good st' ((var, i) :: H) U /\ exists p, find_parent inv b = Some p /\ assoc (g_known st') var = Some p /\
    (forall hp d s, assoc defs0 p = Some hp -> In d (hv_dims hp) -> In s (split_on ":"%char d) -> py_int (lower s) = None ->
      In (lower s) (map fst (g_known st')) \/ In (lower s) (g_add st') \/ In (lower s) args) /\
    (forall w, assoc (g_known st') w <> None <-> assoc (g_known st) w <> None \/ w = var) /\ (forall x, In x (g_add st) -> In x (g_add st')).
Proof.
  intros G NB PO KN E. unfold touch in E. destruct (find_parent inv b) as [p|] eqn:F; [|discriminate].
  destruct (assoc (g_defs st) p) as [v|] eqn:Ap; [|discriminate]. apply bind_ok in E as (s & E1 & E2).
  apply dims_only in E1 as (S1 & S2 & S3 & S4 & S5). cbn in S1, S2, S3, S4, S5. rewrite str_eqb_refl in E2. injection E2 as <-. rewrite S1, S2, S3.
  specialize (PO p eq_refl).
  assert (KN' : assoc (g_known st) var = None \/ assoc (g_known st) var = Some p).
  { destruct KN as [KN|KN]; auto. destruct (k_hist _ _ _ G _ _ KN) as (p' & q & K & _). right. destruct (k_known _ _ _ G _ _ K) as [PO' _].
    now rewrite (part_of_fun _ _ _ PO PO'). }
  split.
  - constructor; cbn [g_defs g_known g_par g_add].
    + now apply defs_put; [apply (k_defs _ _ _ G)|..].
    + intros w p' K. destruct (str_dec w var) as [->|N].
      * rewrite put_same in K. injection K as <-. split; auto. rewrite put_same. discriminate.
      * rewrite put_other in K; auto. destruct (k_known _ _ _ G _ _ K) as [A B]. split; auto.
        destruct (str_dec p' p) as [->|N2]; [rewrite put_same; discriminate|now rewrite put_other].
    + intros w j [[= <- <-]|I].
      * exists p. eexists. rewrite !put_same. split; [reflexivity|]. split; [reflexivity|]. destruct (assoc (g_par st) p) as [[]|]; cbn; destruct i; cbn; split; congruence.
      * destruct (k_hist _ _ _ G _ _ I) as (p' & q & K & P & C1 & C2).
        exists p'. destruct (str_dec w var) as [->|N].
        -- assert (p' = p) by (destruct KN' as [X|X]; congruence). subst p'. rewrite !put_same. eexists. split; [reflexivity|]. split; [reflexivity|].
           rewrite P. destruct q; cbn; [|split; congruence|split; congruence]. split; [|destruct (negb (is_in i)); congruence]. intros X. now specialize (C1 X).
        -- rewrite put_other; auto. destruct (str_dec p' p) as [->|N2].
           ++ rewrite put_same. eexists. split; [exact K|]. split; [reflexivity|]. rewrite P. destruct q; cbn; [|split; congruence|split; congruence].
              split; [|destruct (negb (is_in i)); congruence]. intros X. now specialize (C1 X).
           ++ rewrite put_other; auto. eauto.
    + intros w p' K. destruct (str_dec w var) as [->|N]; [exists i; now left|]. rewrite put_other in K; auto. destruct (k_all _ _ _ G _ _ K) as [j J]. exists j. now right.
    + intros p' I. destruct (k_idx _ _ _ G _ I) as (q & P & NQ). destruct (str_dec p' p) as [->|N]; [|rewrite put_other; eauto].
      rewrite put_same. eexists. split; [reflexivity|]. rewrite P. destruct q; cbn; try congruence. destruct (negb (is_in i)); congruence.
    + intros p' q P NQ. destruct (str_dec p' p) as [->|N].
      * rewrite put_same in P. injection P as <-. destruct (is_in i) eqn:II.
        -- destruct i; try discriminate. destruct (assoc (g_par st) p) as [[]|] eqn:Q; cbn in NQ; try congruence;
             destruct (k_min _ _ _ G p _ Q ltac:(discriminate)) as (w & j & I & K & J); exists w, j;
             (split; [now right|]); (split; [|exact J]); (destruct (str_dec w var) as [->|NW]; [now rewrite put_same|now rewrite put_other]).
        -- exists var, i. split; [now left|]. split; [apply put_same|]. destruct i; discriminate.
      * rewrite put_other in P; auto. destruct (k_min _ _ _ G _ _ P NQ) as (w & j & I & K & J). exists w, j. split; [now right|]. split; auto.
        rewrite put_other; auto. intros ->. destruct KN' as [X|X]; congruence.
    + apply put_nodup, (k_nd _ _ _ G).
  - exists p. split; auto. cbn. split; [apply put_same|]. split.
{ intros hp d t A Id It P.
    destruct (proj2 (k_defs _ _ _ G) p v Ap) as (h0 & H0 & HD & _). rewrite A in H0. injection H0 as <-.
    destruct (S5 t) as [X|[X|X]]; auto.
    + apply in_concat. exists (split_on ":"%char d). split; auto. apply in_map. now rewrite HD.
    + left. apply put_keys. auto.
}    split; [|auto].
    intros w. rewrite !assoc_key, put_keys. reflexivity.
Qed.
Lemma touch_index args st H U var i b n st' : good st H U -> name n -> In (var, i) H -> assoc (g_known st) var <> None ->
  (forall p, find_parent inv b = Some p -> part_of var p) ->
  touch inv args var i b st n = Ok st' ->
  exists p, find_parent inv n = Some p /\ good st' H (p :: U) /\ (forall w, assoc (g_known st) w <> None <-> assoc (g_known st') w <> None) /\
    (forall x, In x (g_add st) -> In x (g_add st')).
Proof.
  intros G NB IH KN PO E. unfold touch in E. destruct (find_parent inv n) as [p|] eqn:F; [|discriminate]. exists p. split; auto.
  destruct (assoc (g_defs st) p) as [v|] eqn:Ap; [|discriminate]. apply bind_ok in E as (s & E1 & E2).
  apply dims_only in E1 as (S1 & S2 & S3 & S4 & _). cbn in S1, S2, S3, S4. injection E2 as <-. rewrite S1, S2, S3. cbn [g_known g_add].
  assert (NO : touch_intent (assoc (g_par st) p) (str_eqb n b) i <> IOut).
  { destruct (str_eqb n b) eqn:EB.
    - apply str_eqb_eq in EB. subst n. destruct (k_hist _ _ _ G _ _ IH) as (p' & q & K & P & _). destruct (k_known _ _ _ G _ _ K) as [PO' _].
      rewrite (part_of_fun _ _ _ (PO p F) PO'). rewrite P. destruct q; cbn; try congruence. destruct (negb (is_in i)); congruence.
    - destruct (assoc (g_par st) p) as [[]|]; cbn; congruence. }
  assert (KS : forall w, assoc (if str_eqb n b then put (g_known st) var p else g_known st) w = assoc (g_known st) w).
  { intros w. destruct (str_eqb n b) eqn:EB; auto. apply str_eqb_eq in EB. subst n. destruct (str_dec w var) as [->|N]; [|now rewrite put_other].
    rewrite put_same. destruct (k_hist _ _ _ G _ _ IH) as (p' & q & K & _). destruct (k_known _ _ _ G _ _ K) as [PO' _].
    now rewrite (part_of_fun _ _ _ (PO p F) PO'). }
  split; [|split; [intros w; now rewrite KS|auto]].
  constructor; cbn [g_defs g_known g_par g_add].
  - now apply defs_put; [apply (k_defs _ _ _ G)|..].
  - intros w p' K. rewrite KS in K. destruct (k_known _ _ _ G _ _ K) as [A B]. split; auto.
    destruct (str_dec p' p) as [->|N2]; [rewrite put_same; discriminate|now rewrite put_other].
  - intros w j I. destruct (k_hist _ _ _ G _ _ I) as (p' & q & K & P & C1 & C2). exists p'. rewrite KS. destruct (str_dec p' p) as [->|N2]; [|rewrite put_other; eauto].
    rewrite put_same. eexists. split; [exact K|]. split; [reflexivity|]. rewrite P in *. split; [|intros X; congruence].
    intros X. specialize (C1 X). destruct q; cbn in *; congruence.
  - intros w p' K. rewrite KS in K. eapply (k_all _ _ _ G); eauto.
  - intros p' [<-|I].
    + rewrite put_same. eauto.
    + destruct (k_idx _ _ _ G _ I) as (q & P & NQ). destruct (str_dec p' p) as [->|N]; [rewrite put_same; eauto|rewrite put_other; eauto].
  - intros p' q P NQ. setoid_rewrite KS. destruct (str_dec p' p) as [->|N]; [|rewrite put_other in P; eauto using (k_min _ _ _ G)].
    rewrite put_same in P. injection P as <-. destruct (assoc (g_par st) p) as [q|] eqn:Q.
    + destruct q; cbn in NQ; [|eapply (k_min _ _ _ G); eauto; discriminate|eapply (k_min _ _ _ G); eauto; discriminate].
      destruct (str_eqb n b) eqn:EB; cbn in NQ; [|congruence]. apply str_eqb_eq in EB. subst n. destruct (is_in i) eqn:II; cbn in NQ; [congruence|].
      exists var, i. split; auto. destruct (k_hist _ _ _ G _ _ IH) as (p' & q' & K & _). destruct (k_known _ _ _ G _ _ K) as [PO' _].
      rewrite (part_of_fun _ _ _ (PO p F) PO'). split; auto. destruct i; discriminate.
    + destruct (str_eqb n b) eqn:EB; cbn in NQ; [|congruence]. apply str_eqb_eq in EB. subst n.
      destruct (k_hist _ _ _ G _ _ IH) as (p' & q' & K & P' & _). destruct (k_known _ _ _ G _ _ K) as [PO' _].
      rewrite (part_of_fun _ _ _ (PO p F) PO') in Q. congruence.
  - apply put_nodup, (k_nd _ _ _ G).
Qed.
(* the indices of a visited variable are recorded *)
Definition marked (U : list str) (v : str) : Prop := forall hv b i x, assoc defs0 v = Some hv -> ref (hv_local hv) b i -> In x i ->
  exists p, find_parent inv x = Some p /\ In p U.
Definition bounds_there (args : list str) (st : gst) (v : str) : Prop := forall p hp d s, assoc (g_known st) v = Some p -> assoc defs0 p = Some hp ->
  In d (hv_dims hp) -> In s (split_on ":"%char d) -> py_int (lower s) = None ->
  In (lower s) (map fst (g_known st)) \/ In (lower s) (g_add st) \/ In (lower s) args.
Lemma indices_touch args var i b js : forall st H U st', good st H U -> Forall name js -> In (var, i) H -> assoc (g_known st) var <> None ->
  (forall p, find_parent inv b = Some p -> part_of var p) ->
  fold_st (touch inv args var i b) js st = Ok st' ->
  exists U', good st' H U' /\ incl U U' /\ (forall x, In x js -> exists p, find_parent inv x = Some p /\ In p U') /\
    (forall w, assoc (g_known st) w <> None <-> assoc (g_known st') w <> None) /\ (forall x, In x (g_add st) -> In x (g_add st')).
Proof.
  induction js as [|n js IH]; cbn [fold_st]; intros st H U st' G N I K PO E.
  - injection E as <-. exists U. split; auto. split; [apply incl_refl|]. split; [intros x []|]. split; [tauto|auto].
  - apply bind_ok in E as (s & E1 & E2). inversion N; subst. eapply touch_index in E1 as (p & F & G1 & KS & AD); eauto.
    eapply IH in E2 as (U' & G2 & IN & Q & KS2 & AD2); eauto; [|now apply KS]. exists U'. split; auto. split; [intros x X; apply IN; now right|]. split; [|split; auto].
    + intros x [<-|X]; auto. exists p. split; auto. apply IN. now left.
    + intros w. now rewrite KS, KS2.
Qed.
Lemma visit_ok args st H U vi st' : good st H U -> (forall v, assoc (g_known st) v <> None -> marked U v) ->
  visit inv args st vi = Ok st' ->
  exists U', good st' (vi :: H) U' /\ incl U U' /\ (forall v, assoc (g_known st') v <> None -> marked U' v) /\
    (forall w, assoc (g_known st) w <> None -> assoc (g_known st') w <> None) /\
    (forall w, assoc (g_known st') w <> None -> assoc (g_known st) w = None -> w = fst vi) /\
    (forall x, In x (g_add st) -> In x (g_add st')) /\
    (assoc (g_known st) (fst vi) = None -> bounds_there args st' (fst vi)).
Proof.
  intros G MK E. destruct vi as [var i]. unfold visit in E. cbn [fst]. destruct (assoc (g_known st) var) as [p|] eqn:K.
  - destruct (assoc (g_par st) p) as [q|] eqn:P; [|discriminate]. injection E as <-. exists U. cbn [g_known g_add].
    split; [|repeat split; auto; try discriminate; congruence]. constructor; cbn [g_defs g_known g_par].
    + apply (k_defs _ _ _ G).
    + intros w p' K'. destruct (k_known _ _ _ G _ _ K') as [A B]. split; auto. destruct (str_dec p' p) as [->|N]; [rewrite put_same; discriminate|now rewrite put_other].
    + intros w j [[= <- <-]|I].
      * exists p. rewrite put_same. eexists. split; [exact K|]. split; [reflexivity|]. destruct q, i; cbn; split; congruence.
      * destruct (k_hist _ _ _ G _ _ I) as (p' & q' & K' & P' & C1 & C2). exists p'. destruct (str_dec p' p) as [->|N].
        -- rewrite put_same. eexists. split; [exact K'|]. split; [reflexivity|]. rewrite P in P'. injection P' as <-.
           split; [intros X; specialize (C1 X)|intros X; apply C2]; destruct q, i; cbn in *; congruence.
        -- rewrite put_other; eauto.
    + intros w p' K'. destruct (k_all _ _ _ G _ _ K') as [j J]. exists j. now right.
    + intros p' I. destruct (k_idx _ _ _ G _ I) as (q' & P' & NQ). destruct (str_dec p' p) as [->|N]; [|rewrite put_other; eauto].
      rewrite put_same. eexists. split; [reflexivity|]. rewrite P in P'. injection P' as <-. destruct q, i; cbn; congruence.
    + intros p' q' P' NQ. destruct (str_dec p' p) as [->|N].
      * rewrite put_same in P'. injection P' as <-. destruct (is_in i) eqn:II.
        -- assert (NQ' : q <> IIn) by (intros ->; destruct i; cbn in II, NQ; congruence). destruct (k_min _ _ _ G _ _ P NQ') as (w & j & I & J). exists w, j. split; auto. now right.
        -- exists var, i. split; [now left|]. split; auto. destruct i; discriminate.
      * rewrite put_other in P'; auto. destruct (k_min _ _ _ G _ _ P' NQ) as (w & j & I & J). exists w, j. split; auto. now right.
    + apply put_nodup, (k_nd _ _ _ G).
  - destruct (assoc (g_defs st) var) as [v|] eqn:A; [|discriminate]. apply bind_ok in E as ([b js] & E1 & E2). cbn [fst snd fold_st] in E2.
    apply bind_ok in E2 as (s1 & E2 & E3).
    destruct (proj2 (k_defs _ _ _ G) _ _ A) as (hv0 & A0 & _). destruct (REF _ _ A0) as (b0 & i0 & R).
    destruct (defs_ref _ _ _ _ _ _ (k_defs _ _ _ G) A A0 R) as (js' & X & Q). rewrite E1 in X. injection X as <- <-.
    destruct (proj1 ref_index_names _ _ _ R) as [NB NI].
    assert (PO : forall p, find_parent inv b = Some p -> part_of var p) by (intros p F; exists hv0, b, i0; auto).
    eapply touch_main in E2 as (G1 & p & F & K1 & BD & STEP & AD1); eauto.
    assert (NJ : Forall name js) by (apply Forall_forall; intros x X; apply Q in X; rewrite Forall_forall in NI; auto).
    assert (K1' : assoc (g_known s1) var <> None) by congruence.
    pose proof E3 as E3'. eapply indices_touch in E3 as (U' & G2 & IN & MJ & KS & AD); [|exact G1|exact NJ|now left|exact K1'|exact PO].
    exists U'. split; [exact G2|]. split; [exact IN|]. split; [|split; [|split; [|split]]].
    + intros w KW. apply KS, STEP in KW as [KW| ->].
      * intros hv' b' i' x A' R' X. destruct (MK w KW hv' b' i' x A' R' X) as (p' & F' & I'). exists p'. split; auto.
      * intros hv' b' i' x A' R' X. rewrite A0 in A'. injection A' as <-. destruct (ref_unique _ _ _ _ _ R R') as [_ Q']. apply MJ, Q, Q', X.
    + intros w KW. apply KS, STEP. auto.
    + intros w KW NW. apply KS, STEP in KW as [KW|KW]; congruence.
    + auto.
    + intros _ p' hp d t K' A' Id It P. destruct (k_known _ _ _ G2 _ _ K') as [PO' _]. destruct (k_known _ _ _ G1 _ _ K1) as [PO1 _].
      rewrite (part_of_fun _ _ _ PO' PO1) in A'. destruct (BD hp d t A' Id It P) as [X|[X|X]]; auto. left. apply assoc_key, KS, assoc_key. exact X.
Qed.

Definition mk_ok (st : gst) (U : list str) : Prop := forall v, assoc (g_known st) v <> None -> marked U v.
Definition grows (st st' : gst) : Prop :=
  (forall w, assoc (g_known st) w <> None -> assoc (g_known st') w <> None) /\ (forall x, In x (g_add st) -> In x (g_add st')).
Lemma bounds_mono args st H U st' H' U' v : good st H U -> good st' H' U' -> grows st st' -> assoc (g_known st) v <> None ->
  bounds_there args st v -> bounds_there args st' v.
Proof.
  intros G G' [K A] KV B p hp d t Kp Ap Id It P. destruct (assoc (g_known st) v) as [p0|] eqn:E; [|congruence].
  destruct (k_known _ _ _ G _ _ E) as [PO _]. destruct (k_known _ _ _ G' _ _ Kp) as [PO' _].
  rewrite (part_of_fun _ _ _ PO' PO) in Ap. destruct (B p0 hp d t E Ap Id It P) as [X|[X|X]]; auto.
  left. apply assoc_key, K, assoc_key, X.
Qed.
Lemma visits_ok args l : forall st H U st', good st H U -> mk_ok st U -> fold_st (visit inv args) l st = Ok st' ->
  exists H' U', good st' H' U' /\ mk_ok st' U' /\ incl H H' /\ incl l H' /\ (forall vi, In vi H' -> In vi H \/ In vi l) /\ grows st st' /\
    (forall v, assoc (g_known st') v <> None -> assoc (g_known st) v = None -> bounds_there args st' v).
Proof.
  induction l as [|vi l IH]; cbn [fold_st]; intros st H U st' G MK E.
  - injection E as <-. exists H, U. split; auto. split; auto. split; [apply incl_refl|]. split; [intros x []|]. split; [tauto|]. split; [split; auto|]. congruence.
  - apply bind_ok in E as (s & E1 & E2). destruct (visit_ok _ _ _ _ _ _ G MK E1) as (U1 & G1 & _ & MK1 & KM & KN & AM & BD).
    destruct (IH _ _ _ _ G1 MK1 E2) as (H' & U' & G' & MK' & IH1 & IH2 & IH3 & [K A] & IH5). exists H', U'. split; auto. split; auto.
    split; [intros x X; apply IH1; now right|]. split; [intros x [<-|X]; [apply IH1; now left|auto]|].
    split; [intros x X; destruct (IH3 x X) as [[X1|X1]|X1]; [right; now left|now left|right; now right]|]. split; [split; auto|].
    intros v KV NV. destruct (assoc (g_known s) v) as [p|] eqn:KS.
    + assert (KS' : assoc (g_known s) v <> None) by congruence. pose proof (KN v KS' NV) as ->.
      eapply bounds_mono; [exact G1|exact G'|split; auto|exact KS'|now apply BD].
    + now apply IH5.
Qed.
Lemma pass_ok args st H U st' : good st H U -> mk_ok st U -> pass inv args st = Ok st' ->
  exists H' U', good st' H' U' /\ mk_ok st' U' /\ incl H H' /\ incl args H' /\ (forall x, In x (g_add st) -> In (x, IIn) H') /\
    (forall vi, In vi H' -> In vi H \/ snd vi = IIn \/ In vi args) /\ grows st st' /\
    (forall v, assoc (g_known st') v <> None -> assoc (g_known st) v = None -> bounds_there (map fst args) st' v).
Proof.
  intros G MK E. unfold pass in E. destruct (visits_ok _ _ _ _ _ _ G MK E) as (H' & U' & G' & MK' & I1 & I2 & I3 & GR & BD). exists H', U'.
  split; auto. split; auto. split; auto. split; [intros x X; apply I2, in_or_app; auto|]. split.
  - intros x X. apply I2, in_or_app. left. apply in_map_iff. eauto.
  - split; [|auto]. intros vi X. apply I3 in X as [X|X]; auto. apply in_app_or in X as [X|X]; auto. apply in_map_iff in X as (n & <- & _). auto.
Qed.
(* [known_bounds st v]: the bounds of the dimensions of the parent of [v] are known *)
Definition known_bounds (st : gst) (v : str) : Prop := forall p hp d s, assoc (g_known st) v = Some p -> assoc defs0 p = Some hp ->
  In d (hv_dims hp) -> In s (split_on ":"%char d) -> py_int (lower s) = None -> assoc (g_known st) (lower s) <> None.
Lemma scheme_ok sc st H U st' : good st H U -> mk_ok st U -> scheme inv st sc = Ok st' ->
  exists H' U', good st' H' U' /\ mk_ok st' U' /\ incl H H' /\ incl (snd sc) H' /\ (forall x, In x (fst sc) -> In (x, IIn) H') /\
    (forall vi, In vi H' -> In vi H \/ snd vi = IIn \/ In vi (snd sc)) /\ 
    (forall w, assoc (g_known st) w <> None -> assoc (g_known st') w <> None) /\
    (forall v, In v (fst sc) \/ In v (map fst (snd sc)) -> assoc (g_known st) v = None -> known_bounds st' v).
Proof.
  intros G MK E. unfold scheme in E. apply bind_ok in E as (s1 & E1 & E2).
  assert (G0 : good (mkG (fst sc) (g_known st) (g_par st) (g_defs st)) H U) by (destruct G; constructor; auto).
  destruct (pass_ok _ _ _ _ _ G0 MK E1) as (H1 & U1 & G1 & MK1 & A1 & A2 & A3 & A4 & [K1 D1] & B1).
  destruct (pass_ok _ _ _ _ _ G1 MK1 E2) as (H2 & U2 & G2 & MK2 & C1 & C2 & C3 & C4 & [K2 D2] & B2).
  cbn [g_known g_add] in *. exists H2, U2. split; auto. split; auto. split; [intros x X; auto|]. split; auto. split; [intros x X; apply C1, A3, X|]. split; [|split].
  - intros vi X. apply C4 in X as [X|[X|X]]; auto.
  - auto.
  - intros v IV NV p hp d t Kp Ap Id It P.
    assert (KV : assoc (g_known s1) v <> None).
    { destruct IV as [X|X].
      - destruct (k_hist _ _ _ G1 _ _ (A3 v X)) as (p' & _ & K & _). congruence.
      - apply in_map_iff in X as ([v' i] & E & X). cbn in E. subst v'. destruct (k_hist _ _ _ G1 _ _ (A2 _ X)) as (p' & _ & K & _). congruence. }
    pose proof (B1 v KV NV) as B. destruct (assoc (g_known s1) v) as [p1|] eqn:E; [|congruence].
    destruct (k_known _ _ _ G1 _ _ E) as [PO _]. destruct (k_known _ _ _ G2 _ _ Kp) as [PO' _].
    rewrite (part_of_fun _ _ _ PO' PO) in Ap. destruct (B p1 hp d t E Ap Id It P) as [X|[X|X]].
    + apply K2, assoc_key, X.
    + destruct (k_hist _ _ _ G2 _ _ (C3 _ X)) as (p' & _ & K & _). congruence.
    + apply in_map_iff in X as ([v' i] & E' & X). cbn in E'. subst v'. destruct (k_hist _ _ _ G2 _ _ (C2 _ X)) as (p' & _ & K & _). congruence.
Qed.
Lemma kb_mono st H U st' H' U' v : good st H U -> good st' H' U' -> (forall w, assoc (g_known st) w <> None -> assoc (g_known st') w <> None) ->
  assoc (g_known st) v <> None -> known_bounds st v -> known_bounds st' v.
Proof.
  intros G G' K KV B p hp d t Kp Ap Id It P. destruct (assoc (g_known st) v) as [p0|] eqn:E; [|congruence].
  destruct (k_known _ _ _ G _ _ E) as [PO _]. destruct (k_known _ _ _ G' _ _ Kp) as [PO' _].
  rewrite (part_of_fun _ _ _ PO' PO) in Ap. eapply K, B; eauto.
Qed.
Lemma schemes_ok ss : forall st H U st', good st H U -> mk_ok st U -> fold_st (scheme inv) ss st = Ok st' ->
  exists H' U', good st' H' U' /\ mk_ok st' U' /\ incl H H' /\ 
    (forall sc, In sc ss -> incl (snd sc) H' /\ (forall x, In x (fst sc) -> In (x, IIn) H')) /\
    (forall vi, In vi H' -> In vi H \/ snd vi = IIn \/ exists sc, In sc ss /\ In vi (snd sc)) /\
    (forall w, assoc (g_known st) w <> None -> assoc (g_known st') w <> None).
Proof.
  induction ss as [|sc ss IH]; cbn [fold_st]; intros st H U st' G MK E.
  - injection E as <-. exists H, U. split; auto. split; auto. split; [apply incl_refl|]. split; [intros ? []|]. split; auto.
  - apply bind_ok in E as (s & E1 & E2). destruct (scheme_ok _ _ _ _ _ G MK E1) as (H1 & U1 & G1 & MK1 & A1 & A2 & A3 & A4 & A5 & _).
    destruct (IH _ _ _ _ G1 MK1 E2) as (H' & U' & G' & MK' & B1 & B2 & B3 & B4). exists H', U'. split; auto. split; auto. split; [intros x X; auto|]. split; [|split; [|auto]].
    + intros sc' [<-|I]; auto. split; [intros x X; auto|intros x X; auto].
    + intros vi X. apply B3 in X as [X|[X|(sc' & I & X)]]; auto; [|right; right; exists sc'; split; auto; now right].
      apply A4 in X as [X|[X|X]]; auto. right. right. exists sc. split; auto. now left.
Qed.
Lemma good_start d : defs_ok d -> good (mkG [] [] [] d) [] [].
Proof. intros D. constructor; cbn; [auto|discriminate|intros ? ? []|discriminate|intros ? []|discriminate|constructor]. Qed.
Lemma mk_start d : mk_ok (mkG [] [] [] d) [].
Proof. intros v X. now contradiction X. Qed.
Lemma fold_st_app {A} (f : gst -> A -> res gst) l1 l2 st st' : fold_st f (l1 ++ l2) st = Ok st' -> exists s, fold_st f l1 st = Ok s /\ fold_st f l2 s = Ok st'.
Proof.
  revert st. induction l1 as [|x l1 IH]; cbn [fold_st app]; intros st E; [eauto|]. apply bind_ok in E as (s & E1 & E2).
  apply IH in E2 as (s2 & Q1 & Q2). exists s2. rewrite E1. auto.
Qed.
Lemma stage_bounds d ss1 sc ss2 st v : defs_ok d -> stage inv d (ss1 ++ sc :: ss2) = Ok st -> In v (fst sc) \/ In v (map fst (snd sc)) ->
  (forall st1, stage inv d ss1 = Ok st1 -> assoc (g_known st1) v = None) ->
  exists H U, good st H U /\ assoc (g_known st) v <> None /\ known_bounds st v.
Proof.
  intros D E IV NV. unfold stage in *. apply fold_st_app in E as (s1 & E1 & E2). cbn [fold_st] in E2. apply bind_ok in E2 as (s2 & E2 & E3).
  destruct (schemes_ok _ _ _ _ _ (good_start d D) (mk_start d) E1) as (H1 & U1 & G1 & MK1 & _).
  destruct (scheme_ok _ _ _ _ _ G1 MK1 E2) as (H2 & U2 & G2 & MK2 & _ & A2 & A3 & _ & _ & A6).
  destruct (schemes_ok _ _ _ _ _ G2 MK2 E3) as (H3 & U3 & G3 & _ & _ & _ & _ & K3). exists H3, U3. split; auto.
  assert (KV : assoc (g_known s2) v <> None).
  { destruct IV as [X|X].
    - destruct (k_hist _ _ _ G2 _ _ (A3 v X)) as (p' & _ & K & _). congruence.
    - apply in_map_iff in X as ([v' i] & E & X). cbn in E. subst v'. destruct (k_hist _ _ _ G2 _ _ (A2 _ X)) as (p' & _ & K & _). congruence. }
  split; auto. eapply kb_mono; [exact G2|exact G3|exact K3|exact KV|]. apply A6; auto.
Qed.

(* ---------------------------------------------------------------- nothing else *)
Definition refers0 (v x : str) : Prop := exists hv b i, assoc defs0 v = Some hv /\ ref (hv_local hv) b i /\ (x = b \/ In x i).
Section Up.
Variable need : str -> Prop.
Hypothesis need_bd : forall v x p hp d t, need v -> refers0 v x -> find_parent inv x = Some p -> assoc defs0 p = Some hp ->
  In d (hv_dims hp) -> In t (split_on ":"%char d) -> py_int (lower t) = None -> need (lower t).
Record up (st : gst) : Prop := {
  u_defs : defs_ok (g_defs st);
  u_add : forall x, In x (g_add st) -> need x;
  u_known : forall v, assoc (g_known st) v <> None -> need v;
  u_par : forall p, assoc (g_par st) p <> None -> exists v x, need v /\ refers0 v x /\ find_parent inv x = Some p }.
Lemma dims_add args l : (forall b, In b l -> py_int (lower b) = None -> need (lower b)) -> forall st st', up st -> fold_st (parent_dim args) l st = Ok st' -> up st'.
Proof.
  intros N st st' UP E. revert E. apply fold_st_inv; auto. intros s x s' [A B C D] I E. unfold parent_dim in E. cbv zeta in E.
  destruct (py_int (lower x)) eqn:P; [injection E as <-; constructor; auto|].
  destruct (mem_s (lower x) (map fst (g_known s))); [injection E as <-; constructor; auto|].
  destruct (mem_s (lower x) (g_add s ++ args)); [injection E as <-; constructor; auto|].
  destruct (mem_s (lower x) (map fst (g_defs s))); [|discriminate]. injection E as <-. constructor; cbn; auto.
  intros y Y. apply in_app_or in Y as [Y|[<-|[]]]; auto.
Qed.
Lemma touch_up args var i b st n st' : up st -> need var -> refers0 var n -> name n -> touch inv args var i b st n = Ok st' -> up st'.
Proof.
  intros UP NV RN NN E. unfold touch in E. destruct (find_parent inv n) as [p|] eqn:F; [|discriminate].
  destruct (assoc (g_defs st) p) as [v|] eqn:Ap; [|discriminate]. apply bind_ok in E as (s & E1 & E2).
  apply dims_add in E1.
  - injection E2 as <-. destruct E1 as [A B C D]. constructor; cbn; auto.
    + intros w W. destruct (str_eqb n b); auto. apply assoc_key, put_keys in W as [W| ->]; auto. apply C, assoc_key, W.
    + intros q Q. apply assoc_key, put_keys in Q as [Q| ->]; [apply D, assoc_key, Q|]. eauto.
  - intros t It P. apply in_concat in It as (l & Il & It). apply in_map_iff in Il as (d & <- & Id).
    destruct (proj2 (u_defs _ UP) p v Ap) as (h0 & H0 & HD & _). rewrite HD in Id. eapply need_bd; eauto.
  - destruct UP as [A B C D]. constructor; cbn; auto. now apply defs_put.
Qed.
Lemma visit_up args st vi st' : up st -> need (fst vi) -> visit inv args st vi = Ok st' -> up st'.
Proof.
  intros UP N E. destruct vi as [var i]. cbn [fst] in N. unfold visit in E. destruct (assoc (g_known st) var) as [p|].
  - destruct (assoc (g_par st) p) as [q|] eqn:P; [|discriminate]. injection E as <-. destruct UP as [A B C D]. constructor; cbn; auto.
    intros q' Q. apply assoc_key, put_keys in Q as [Q| ->]; [apply D, assoc_key, Q|]. apply D. congruence.
  - destruct (assoc (g_defs st) var) as [v|] eqn:A; [|discriminate]. apply bind_ok in E as ([b js] & E1 & E2). cbn [fst snd] in E2.
    destruct (proj2 (u_defs _ UP) _ _ A) as (hv0 & A0 & _). destruct (REF _ _ A0) as (b0 & i0 & R).
    destruct (defs_ref _ _ _ _ _ _ (u_defs _ UP) A A0 R) as (js' & X & Q). rewrite E1 in X. injection X as <- <-.
    destruct (proj1 ref_index_names _ _ _ R) as [NB NI]. rewrite Forall_forall in NI. revert E2. apply fold_st_inv; auto.
    intros s x s' Us I E. eapply touch_up; [exact Us|exact N| | |exact E].
    + exists hv0, b, i0. split; [exact A0|split; [exact R|]]. destruct I as [<-|I]; [now left|right; now apply Q].
    + destruct I as [<-|I]; [exact NB|now apply NI, Q].
Qed.
Lemma pass_up args st st' : up st -> (forall v i, In (v, i) args -> need v) -> pass inv args st = Ok st' -> up st'.
Proof.
  intros UP N E. unfold pass in E. pose proof (u_add _ UP) as UA. revert E. apply fold_st_inv; auto. intros s [v i] s' Us I E. eapply visit_up; eauto. cbn.
  apply in_app_or in I as [I|I]; [|eauto]. apply in_map_iff in I as (n & [= <- <-] & I). auto.
Qed.
Lemma stage_up d ss st : defs_ok d -> (forall sc, In sc ss -> (forall v i, In (v, i) (snd sc) -> need v) /\ (forall v, In v (fst sc) -> need v)) ->
  stage inv d ss = Ok st -> up st.
Proof.
  intros D N E. unfold stage in E. revert E. apply fold_st_inv.
  - intros s sc s' Us I E. destruct (N sc I) as [N1 N2]. unfold scheme in E. apply bind_ok in E as (s1 & E1 & E2).
    eapply pass_up; [|exact N1|exact E2]. eapply pass_up; [|exact N1|exact E1]. destruct Us as [A B C F]. constructor; cbn; auto.
  - constructor; cbn; auto; [intros ? []| |]; intros ? X; now contradiction X.
Qed.
End Up.
End Inv.
