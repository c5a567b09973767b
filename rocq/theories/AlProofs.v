(* AlProofs.v: local variables of groups. *)
From Coq Require Import List Ascii String ZArith Bool Lia Permutation.
From Verif Require Import PyStr Base ReqModel ReqProofs CheckProofs HdrModel HdrProofs ArProofs AlModel AlSpec.
Import ListNotations.
Open Scope nat_scope. Open Scope list_scope.

Definition names (l : list lvar) : list str := map l_name l.
Definition k_scalar (v : lvar) : bool := match l_dims v with [] => true | _ => false end.
Definition k_alloc (v : lvar) : bool := negb (k_scalar v) && negb (l_opt v).
Definition k_opt (called : str -> bool) (v : lvar) : bool := negb (k_scalar v) && l_opt v && called (l_std v).
Definition k_inactive (called : str -> bool) (v : lvar) : bool := negb (k_scalar v) && l_opt v && negb (called (l_std v)).
Lemma has_not n l : ~ In n (names l) -> has_name n l = false.
Proof. unfold has_name. intros H. now apply mem_not. Qed.
Lemma classify_ok compat called l : forall p,
  NoDup (names l) -> (forall v, In v l -> ~ In (l_name v) (names (p_alloc p) ++ names (p_opt p) ++ names (p_scalar p))) ->
  classify compat called p l = Ok (mkParts (p_alloc p ++ List.filter k_alloc l) (p_opt p ++ List.filter (k_opt called) l) (p_scalar p ++ List.filter k_scalar l) (p_inactive p ++ List.filter (k_inactive called) l)).
Proof.
  induction l as [|v l IH]; intros p N F; cbn [classify].
  - destruct p as [x1 x2 x3 x4]. cbn [List.filter p_alloc p_opt p_scalar p_inactive]. now rewrite !app_nil_r.
  - cbn [names map] in N. inversion N as [|? ? N1 N2]; subst.
    assert (FV := F v (or_introl eq_refl)). unfold classify1.
    assert (A1 : has_name (l_name v) (p_alloc p) = false) by (apply has_not; intros I; apply FV, in_or_app; now left).
    assert (A2 : has_name (l_name v) (p_opt p) = false) by (apply has_not; intros I; apply FV, in_or_app; right; apply in_or_app; now left).
    assert (A3 : has_name (l_name v) (p_scalar p) = false) by (apply has_not; intros I; apply FV, in_or_app; right; apply in_or_app; now right).
    rewrite A1, A2, A3. cbn [orb]. cbn [List.filter].
    assert (X : forall w, In w l -> l_name w <> l_name v) by (intros w I E; apply N1; rewrite <- E; now apply in_map).
    assert (Y : forall w, In w l -> ~ In (l_name w) (names (p_alloc p) ++ names (p_opt p) ++ names (p_scalar p))) by (intros w I; apply F; now right).
    assert (K1 : k_scalar v = match l_dims v with [] => true | _ => false end) by reflexivity.
    unfold k_alloc at 1, k_opt at 1, k_inactive at 1. rewrite !K1. destruct (l_dims v) as [|d ds].
    + cbn [bind negb andb]. rewrite IH; [cbn [p_alloc p_opt p_scalar p_inactive]; now rewrite <- app_assoc|exact N2|].
      cbn [p_alloc p_opt p_scalar]. intros w I H. unfold names in H. rewrite map_app in H. rewrite !in_app_iff in H. cbn [map In] in H.
      specialize (Y w I). rewrite !in_app_iff in Y. specialize (X w I). unfold names in Y. intuition congruence.
    + cbn [negb andb]. destruct (l_opt v); [destruct (called (l_std v))|]; cbn [bind negb andb];
      (rewrite IH; [cbn [p_alloc p_opt p_scalar p_inactive]; now rewrite <- app_assoc|exact N2|]);
      cbn [p_alloc p_opt p_scalar]; intros w I H; unfold names in H; try rewrite map_app in H; rewrite !in_app_iff in H; cbn [map In] in H;
      specialize (Y w I); rewrite !in_app_iff in Y; specialize (X w I); unfold names in Y; intuition congruence.
Qed.
Lemma transforms_ok l : forall p, NoDup (names l) -> (forall v, In v l -> ~ In (l_name v) (names (p_alloc p) ++ names (p_scalar p))) ->
  fold_left add_transform l p = mkParts (p_alloc p ++ List.filter (fun v => negb (k_scalar v)) l) (p_opt p) (p_scalar p ++ List.filter k_scalar l) (p_inactive p).
Proof.
  induction l as [|v l IH]; intros p N F; cbn [fold_left].
  - destruct p as [x1 x2 x3 x4]. cbn [List.filter p_alloc p_opt p_scalar p_inactive]. now rewrite !app_nil_r.
  - cbn [names map] in N. inversion N as [|? ? N1 N2]; subst. assert (FV := F v (or_introl eq_refl)).
    assert (X : forall w, In w l -> l_name w <> l_name v) by (intros w I E; apply N1; rewrite <- E; now apply in_map).
    assert (Y : forall w, In w l -> ~ In (l_name w) (names (p_alloc p) ++ names (p_scalar p))) by (intros w I; apply F; now right).
    assert (E : add_transform p v = if k_scalar v then mkParts (p_alloc p) (p_opt p) (p_scalar p ++ [v]) (p_inactive p) else mkParts (p_alloc p ++ [v]) (p_opt p) (p_scalar p) (p_inactive p)).
    { unfold add_transform, k_scalar, put_var. rewrite !has_not; [now destruct (l_dims v)| |]; intros I; apply FV, in_or_app; [now left|now right]. }
    rewrite E. cbn [List.filter]. destruct (k_scalar v); cbn [negb];
      (rewrite IH; [cbn [p_alloc p_opt p_scalar p_inactive]; now rewrite <- app_assoc|exact N2|]);
      cbn [p_alloc p_opt p_scalar]; intros w I H; unfold names in H; rewrite map_app in H; rewrite !in_app_iff in H; cbn [map In] in H;
      specialize (Y w I); rewrite !in_app_iff in Y; specialize (X w I); unfold names in Y; intuition congruence.
Qed.

(* ---- the text of dimensions ---- *)
Lemma map_res_F2 {A B} (f : A -> res B) l ys : Forall2 (fun x y => f x = Ok y) l ys -> map_res f l = Ok ys.
Proof. induction 1 as [|x y l ys E _ IH]; cbn [map_res]; [reflexivity|]. rewrite E. cbn [bind]. now rewrite IH. Qed.
Lemma split_no (s : str) : ~ In ":"%char s -> split_on ":" s = [s].
Proof. apply CheckProofs.split_none. Qed.
Lemma split_two (a b : str) : ~ In ":"%char a -> ~ In ":"%char b -> split_on ":" (a ++ L ":" ++ b) = [a; b].
Proof.
  intros A B. change (L ":" ++ b) with (":"%char :: b). rewrite CheckProofs.split_app; [|exact A]. now rewrite (split_no b B).
Qed.

Lemma dim_part_inv lookup d n : dim_part lookup d = Ok n <-> lookup d = Some n.
Proof. unfold dim_part. destruct (lookup d) as [x|]; split; intros H; try discriminate; [apply Ok_inj in H; now subst|injection H as ->; reflexivity]. Qed.
Lemma dim_text_value lookup env d t : simple_dim d -> (forall x n, lookup x = Some n -> plain n) -> dim_text lookup d = Ok t ->
  exists v, dim_value lookup env d v /\ bound_value env t v /\ ~ In ","%char t /\ ~ In " "%char t.
Proof.
  intros SD PL H. unfold dim_text in H. destruct SD as [N|(a & b & -> & A & B)].
  - rewrite (split_no d N) in H. cbn [map_res] in H. apply bind_inv in H as (ps & P & H). apply bind_inv in P as (n & D & P). apply Ok_inj in P. cbn [bind] in P. subst ps. apply Ok_inj in H. cbn [join] in H. subst t.
    apply dim_part_inv in D. destruct (PL _ _ D) as (P1 & P2 & P3). exists (1%Z, env n). split; [now constructor|]. split; [now constructor|]. auto.
  - rewrite (split_two a b A B) in H. cbn [map_res] in H. apply bind_inv in H as (ps & P & H). apply bind_inv in P as (x & D1 & P). apply bind_inv in P as (q & Q & P). apply bind_inv in Q as (y & D2 & Q).
    cbn [bind] in Q. apply Ok_inj in Q. subst q. apply Ok_inj in P. subst ps. apply Ok_inj in H.
    apply dim_part_inv in D1, D2. destruct (PL _ _ D1) as (P1 & P2 & P3). destruct (PL _ _ D2) as (Q1 & Q2 & Q3).
    assert (E : t = x ++ L ":" ++ y) by (rewrite <- H; reflexivity). subst t. exists (env x, env y). split; [now constructor|]. split; [now constructor|].
    assert (J : forall c, ~ In c x -> ~ In c y -> c <> ":"%char -> ~ In c (x ++ L ":" ++ y)).
    { intros c J1 J2 J3 I. apply in_app_or in I as [I|I]; [auto|]. apply in_app_or in I as [I|I]; [|auto]. destruct I as [EQ|[]]. congruence. }
    split; apply J; auto; discriminate.
Qed.
Lemma dim_text_ok lookup d : (exists t, dim_text lookup d = Ok t) <-> forall x, In x (split_on ":" d) -> exists n, lookup x = Some n.
Proof.
  unfold dim_text. split.
  - intros (t & H) x I. apply bind_inv in H as (ps & P & _). apply map_res_inv in P. induction P as [|u y l r E _ IH]; [destruct I|].
    destruct I as [<-|I]; [exists y; now apply dim_part_inv|auto].
  - intros H. assert (K : exists ys, map_res (dim_part lookup) (split_on ":" d) = Ok ys /\ List.length ys = List.length (split_on ":" d)).
    { apply map_res_ok. intros x I. destruct (H x I) as (n & E). exists n. now apply dim_part_inv. }
    destruct K as (ys & -> & _). cbn [bind]. eauto.
Qed.
Lemma dims_ok lookup dims : (exists t, allocate_dim_str lookup dims = Ok t) <-> forall d x, In d dims -> In x (split_on ":" d) -> exists n, lookup x = Some n.
Proof.
  unfold allocate_dim_str. split.
  - intros (t & H) d x I J. apply bind_inv in H as (ds & P & _). apply map_res_inv in P. induction P as [|u y l r E _ IH]; [destruct I|].
    destruct I as [<-|I]; [apply (dim_text_ok lookup u); eauto|auto].
  - intros H. assert (K : exists ys, map_res (dim_text lookup) dims = Ok ys /\ List.length ys = List.length dims).
    { apply map_res_ok. intros d I. apply dim_text_ok. intros x J. eauto. }
    destruct K as (ys & -> & _). cbn [bind]. eauto.
Qed.
Lemma dims_text lookup env dims t : (forall d, In d dims -> simple_dim d) -> (forall x n, lookup x = Some n -> plain n) -> allocate_dim_str lookup dims = Ok t ->
  exists bs vs, t = join (L ", ") bs /\ Forall2 (dim_value lookup env) dims vs /\ Forall2 (bound_value env) bs vs /\ Forall (fun b => ~ In ","%char b /\ ~ In " "%char b) bs /\ List.length bs = List.length dims.
Proof.
  intros SD PL H. unfold allocate_dim_str in H. apply bind_inv in H as (bs & P & H). apply Ok_inj in H. exists bs. apply map_res_inv in P.
  assert (K : exists vs, Forall2 (dim_value lookup env) dims vs /\ Forall2 (bound_value env) bs vs /\ Forall (fun b => ~ In ","%char b /\ ~ In " "%char b) bs /\ List.length bs = List.length dims).
  { clear H. induction P as [|d b l r E _ IH]; [exists []; repeat split; constructor|].
    destruct IH as (vs & V1 & V2 & V3 & V4); [intros; apply SD; now right|].
    destruct (dim_text_value lookup env d b (SD d (or_introl eq_refl)) PL E) as (v & D1 & D2 & D3 & D4).
    exists (v :: vs). repeat split; try (constructor; auto). cbn [List.length]. now rewrite V4. }
  destruct K as (vs & K1 & K2 & K3 & K4). exists vs. auto.
Qed.
Lemma find_name_in n l v : find_name n l = Some v -> In v l /\ l_name v = n.
Proof. unfold find_name. intros H. apply List.find_some in H as [A B]. apply str_eqb_eq in B. auto. Qed.
Lemma find_name_ex n l : In n (names l) -> exists v, find_name n l = Some v.
Proof.
  unfold find_name, names. induction l as [|w l IH]; [intros []|]. cbn [map List.find]. intros [<-|I]; [rewrite str_eqb_refl; eauto|]. destruct (str_eqb (l_name w) n); eauto.
Qed.
Lemma name_inj l v w : NoDup (names l) -> In v l -> In w l -> l_name v = l_name w -> v = w.
Proof.
  induction l as [|x l IH]; [intros _ []|]. cbn [names map]. intros N I J E. inversion N as [|? ? P Q]; subst. destruct I as [->|I], J as [->|J]; auto.
  - elim P. rewrite E. now apply in_map.
  - elim P. rewrite <- E. now apply in_map.
Qed.
(* one allocate statement *)
Lemma alloc_effect lookup env l n s h : (forall v, In v l -> l_dims v <> [] /\ forall d, In d (l_dims v) -> simple_dim d) -> (forall x m, lookup x = Some m -> plain m) ->
  alloc_stmt lookup l n = Ok s -> h n = None ->
  exists v vs, In v l /\ l_name v = n /\ Forall2 (dim_value lookup env) (l_dims v) vs /\ effect env s h (set_heap h n (Some vs)).
Proof.
  intros SD PL H HN. unfold alloc_stmt in H. destruct (find_name n l) as [v|] eqn:F; [|discriminate]. apply find_name_in in F as [I E].
  apply bind_inv in H as (t & T & H). apply Ok_inj in H. destruct (SD v I) as [NE SV]. destruct (dims_text lookup env _ _ SV PL T) as (bs & vs & -> & D & B & FA & LE).
  exists v, vs. split; [exact I|]. split; [exact E|]. split; [exact D|]. subst s. apply E_allocate; auto. intros ->. cbn in LE. destruct (l_dims v); [congruence|discriminate].
Qed.
Lemma allocs_effect lookup env l : (forall v, In v l -> l_dims v <> [] /\ forall d, In d (l_dims v) -> simple_dim d) -> (forall x m, lookup x = Some m -> plain m) ->
  forall ns ts h, map_res (alloc_stmt lookup l) ns = Ok ts -> NoDup ns -> (forall n, In n ns -> h n = None) ->
  exists h', effects env ts h h' /\ (forall n, In n ns -> exists v vs, In v l /\ l_name v = n /\ Forall2 (dim_value lookup env) (l_dims v) vs /\ h' n = Some vs) /\ (forall n, ~ In n ns -> h' n = h n).
Proof.
  intros SD PL. induction ns as [|n ns IH]; intros ts h H N HN; cbn [map_res] in H.
  - apply Ok_inj in H. subst ts. exists h. split; [constructor|]. split; [intros n []|auto].
  - apply bind_inv in H as (s & A & H). apply bind_inv in H as (r & R & H). apply Ok_inj in H. subst ts. inversion N as [|? ? N1 N2]; subst.
    destruct (alloc_effect lookup env l n s h SD PL A (HN n (or_introl eq_refl))) as (v & vs & I & E & D & EF).
    destruct (IH r (set_heap h n (Some vs)) R N2) as (h' & E2 & P1 & P2).
    { intros m J. unfold set_heap. destruct (str_eqb m n) eqn:B; [apply str_eqb_eq in B; subst m; contradiction|]. apply HN. now right. }
    exists h'. split; [econstructor; eauto|]. split.
    + intros m [<-|J]; [|auto]. exists v, vs. repeat split; auto. rewrite P2 by exact N1. unfold set_heap. now rewrite str_eqb_refl.
    + intros m J. rewrite P2 by (intros X; apply J; now right). unfold set_heap. destruct (str_eqb m n) eqn:B; [apply str_eqb_eq in B; subst m; elim J; now left|reflexivity].
Qed.
Lemma effects_app env a b h1 h2 h3 : effects env a h1 h2 -> effects env b h2 h3 -> effects env (a ++ b) h1 h3.
Proof. intros A. revert h3. induction A; intros k B; cbn [app]; [exact B|econstructor; eauto]. Qed.
Lemma frees_effect env ns : forall h, exists h', effects env (map dealloc_stmt ns) h h' /\ (forall n, In n ns -> h' n = None) /\ (forall n, ~ In n ns -> h' n = h n).
Proof.
  induction ns as [|n ns IH]; intros h; cbn [map].
  - exists h. split; [constructor|]. split; [intros n []|auto].
  - assert (K : exists h1, effect env (dealloc_stmt n) h h1 /\ h1 n = None /\ forall m, m <> n -> h1 m = h m).
    { unfold dealloc_stmt. destruct (h n) as [v|] eqn:E.
      - exists (set_heap h n None). split; [now apply (E_free env n _ h v)|]. unfold set_heap. rewrite str_eqb_refl. split; [reflexivity|]. intros m D. apply str_eqb_neq in D. now rewrite D.
      - exists h. split; [now apply E_skip|]. auto. }
    destruct K as (h1 & K1 & K2 & K3). destruct (IH h1) as (h' & E2 & P1 & P2). exists h'. split; [econstructor; eauto|]. split.
    + intros m [<-|J]; [|auto]. destruct (in_dec (list_eq_dec Ascii.ascii_dec) n ns) as [J|J]; [auto|]. now rewrite P2.
    + intros m J. rewrite P2 by (intros X; apply J; now right). apply K3. intros ->. apply J. now left.
Qed.

Lemma F2_in_l {A B} (P : A -> B -> Prop) l m a : Forall2 P l m -> In a l -> exists b, P a b.
Proof. induction 1 as [|x y l m H _ IH]; [intros []|]. intros [<-|I]; eauto. Qed.
