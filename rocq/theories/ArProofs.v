From Coq Require Import List Ascii String ZArith Bool Lia Permutation.
From Verif Require Import PyStr PyNum SelModel ParModel ParProofs ParGroup ArModel ArSpec.
Import ListNotations.
Open Scope nat_scope. Open Scope list_scope.

Lemma bind_inv {A B} (e : res A) (f : A -> res B) b : (x <- e ;; f x) = Ok b -> exists a, e = Ok a /\ f a = Ok b.
Proof. destruct e; cbn; intros H; [eauto|discriminate]. Qed.
Lemma Ok_inj {A} (a b : A) : Ok a = Ok b -> a = b.
Proof. congruence. Qed.
Lemma map_r_inv {A B} (f : A -> res B) l m : map_r f l = Ok m -> Forall2 (fun x y => f x = Ok y) l m.
Proof.
  revert m. induction l as [|x r IH]; cbn; intros m H.
  - injection H as <-. constructor.
  - apply bind_inv in H as (y & E & H). apply bind_inv in H as (ys & E2 & H). injection H as <-. constructor; auto.
Qed.
Lemma map_r_ok {A B} (f : A -> res B) l m : Forall2 (fun x y => f x = Ok y) l m -> map_r f l = Ok m.
Proof. induction 1 as [|x y l m E _ IH]; cbn; [reflexivity|]. now rewrite E, IH. Qed.
Lemma fold_r_app {A S} (f : S -> A -> res S) l m s : fold_r f (l ++ m) s = (t <- fold_r f l s ;; fold_r f m t).
Proof. revert s. induction l as [|x r IH]; cbn; intros s; [reflexivity|]. destruct (f s x); cbn; auto. Qed.

Lemma intrinsic_iff t : standard_type t = true <-> intrinsic t.
Proof.
  unfold standard_type, intrinsic. rewrite existsb_exists. split.
  - intros (x & I & E). apply str_eqb_eq in E. subst. exact I.
  - intros I. exists t. split; [exact I|apply str_eqb_refl].
Qed.
Lemma not_intrinsic t : standard_type t = false <-> ~ intrinsic t.
Proof. rewrite <- intrinsic_iff. destruct (standard_type t); split; congruence. Qed.
Lemma type_text_iff v t : type_text v = Ok t <-> type_spec (pv_type v) (pv_kind v) t.
Proof.
  unfold type_text. destruct (standard_type (pv_type v)) eqn:S.
  - apply intrinsic_iff in S. destruct (pv_kind v) as [|c k] eqn:K; cbn [nonempty]; split; intros H.
    + injection H as <-. now constructor.
    + inversion H; subst; auto; contradiction.
    + injection H as <-. constructor; [exact S|discriminate].
    + inversion H; subst; auto; contradiction.
  - apply not_intrinsic in S. destruct (pv_kind v) as [|c k] eqn:K; cbn [nonempty]; split; intros H.
    + injection H as <-. now constructor.
    + inversion H; subst; auto; contradiction.
    + discriminate.
    + inversion H; subst; contradiction.
Qed.
Lemma bound_iff defs b s : bound_name defs b = Ok s <-> bound defs b s.
Proof.
  unfold bound_name. destruct (py_int b) as [z|] eqn:I; split; intros H.
  - injection H as <-. now apply (bound_number _ _ z).
  - inversion H; subst; congruence.
  - destruct (assoc defs (lower b)) as [v|] eqn:A; [|discriminate]. injection H as <-. now constructor.
  - inversion H as [b' z E|b' v E A]; subst; [congruence|]. now rewrite A.
Qed.
Lemma split_cases c (s : str) : (~ In c s /\ split_on c s = [s]) \/
  (exists x y z, s = x ++ c :: y ++ z /\ ~ In c x /\ ~ In c y /\ (z = [] \/ exists w, z = c :: w) /\
     exists more, split_on c s = x :: y :: more).
Proof.
  induction s as [|d r IH].
  - left. split; [intros []|reflexivity].
  - cbn [split_on]. destruct (Ascii.eqb_spec d c) as [->|N].
    + right. destruct IH as [[N E]|(x & y & z & E & Nx & Ny & Z & more & M)].
      * exists [], r, []. rewrite app_nil_r. rewrite E. repeat split; auto. eauto.
      * exists [], x, (c :: y ++ z). subst r. rewrite M. repeat split; auto; eauto.
    + destruct IH as [[N' E]|(x & y & z & E & Nx & Ny & Z & more & M)].
      * left. rewrite E. split; [|reflexivity]. intros [X|X]; auto.
      * right. exists (d :: x), y, z. subst r. rewrite M. cbn. repeat split; auto; eauto. intros [X|X]; auto.
Qed.
Lemma split_det c (x y z : str) : ~ In c x -> ~ In c y -> (z = [] \/ exists w, z = c :: w) ->
  exists more, split_on c (x ++ c :: y ++ z) = x :: y :: more.
Proof.
  intros Nx Ny Z. induction x as [|d r IH]; cbn [app split_on].
  - rewrite Ascii.eqb_refl. induction y as [|e y IHy]; cbn [app].
    + destruct Z as [->|[w ->]]; cbn; [eauto|]. rewrite Ascii.eqb_refl. eauto.
    + cbn [split_on]. destruct (Ascii.eqb_spec e c) as [->|N]; [exfalso; apply Ny; now left|].
      destruct IHy as [more M]; [intros X; apply Ny; now right|]. injection M as M. rewrite M. eauto.
  - destruct (Ascii.eqb_spec d c) as [->|N]; [exfalso; apply Nx; now left|].
    destruct IH as [more M]; [intros X; apply Nx; now right|]. rewrite M. eauto.
Qed.
Lemma extent_iff defs d lo hi : dim_bounds defs d = Ok (lo, hi) <-> extent defs d lo hi.
Proof.
  unfold dim_bounds. split.
  - destruct (split_cases ":"%char d) as [[N E]|(x & y & z & E & Nx & Ny & Z & more & M)].
    + rewrite E. intros H. apply bind_inv in H as (h & B & H). injection H as <- <-. constructor; [exact N|now apply bound_iff].
    + rewrite M. intros H. apply bind_inv in H as (l & B & H). apply bind_inv in H as (h & B2 & H). injection H as <- <-.
      subst d. constructor; auto; now apply bound_iff.
  - intros H. inversion H as [d' hi' N B E1 E2 E3|x y z lo' hi' Nx Ny Z B1 B2 E1 E2 E3]; subst.
    + destruct (split_cases ":"%char d) as [[N' E]|(x & y & z & E & _)].
      * rewrite E. apply bound_iff in B. now rewrite B.
      * exfalso. apply N. rewrite E. apply in_or_app. right. now left.
    + destruct (split_det ":"%char x y z Nx Ny Z) as [more M]. rewrite M.
      apply bound_iff in B1, B2. now rewrite B1; cbn; rewrite B2.
Qed.
Lemma F2_map_l {A B C} (f : A -> B) (P : B -> C -> Prop) l m : Forall2 (fun x y => P (f x) y) l m -> Forall2 P (map f l) m.
Proof. induction 1; cbn; constructor; auto. Qed.
Lemma shape_iff defs dims s : dimstring defs true dims = Ok s <-> assumed_shape defs dims s.
Proof.
  unfold dimstring. destruct dims as [|d r]; split; intros H.
  - injection H as <-. constructor.
  - inversion H; subst; [reflexivity|congruence].
  - apply bind_inv in H as (bs & E & H). injection H as <-. unfold enclose.
    assert (Q : map (fun lo => lo ++ L ":") (map fst bs) = map (fun b : str * str => fst b ++ L ":") bs) by now rewrite map_map.
    assert (S : assumed_shape defs (d :: r) (L "(" ++ join (L ",") (map (fun lo => lo ++ L ":") (map fst bs)) ++ L ")")); [|rewrite Q in S; exact S].
    apply (shape_array defs (d :: r) (map fst bs)); [discriminate|].
    apply map_r_inv in E. clear - E. induction E as [|x y l m E _ IH]; cbn; constructor; auto.
    exists (snd y). apply extent_iff. now rewrite E; destruct y.
  - inversion H as [|dims los N F E]; subst.
    assert (X : exists bs, map fst bs = los /\ map_r (dim_bounds defs) (d :: r) = Ok bs).
    { clear - F. assert (G : exists bs, map fst bs = los /\ Forall2 (fun d b => dim_bounds defs d = Ok b) (d :: r) bs).
      { induction F as [|x y l m [hi E] _ (bs & <- & G)]; [exists []; split; [reflexivity|constructor]|].
        exists ((y, hi) :: bs). split; [reflexivity|]. constructor; [now apply extent_iff|exact G]. }
      destruct G as (bs & E & G). exists bs. split; [exact E|now apply map_r_ok]. }
    destruct X as (bs & <- & ->). cbn [bind]. unfold enclose. rewrite map_map. reflexivity.
Qed.
Lemma def_intent_iff defs v t : def_intent defs v = Ok t <-> (pv_optional v <> L "T" /\ declares defs v t).
Proof.
  unfold def_intent. split.
  - intros H. apply bind_inv in H as (sh & S & H). destruct (str_eqb (pv_optional v) (L "T")) eqn:O; [discriminate|].
    apply bind_inv in H as (ty & T & H). apply Ok_inj in H. subst t. apply str_eqb_neq in O. split; [exact O|].
    apply shape_iff in S. apply type_text_iff in T.
    destruct (str_eqb (pv_active v) (L "T")) eqn:A.
    + apply str_eqb_eq in A. exact (declares_always defs v ty sh A T S).
    + apply str_eqb_neq in A. exact (declares_sometimes defs v ty sh A T S).
  - intros [O D]. apply str_eqb_neq in O. inversion D as [ty sh A T S E|ty sh A T S E]; subst.
    + apply shape_iff in S. apply type_text_iff in T. rewrite S. cbn [bind]. rewrite O, T. cbn [bind].
      rewrite A, str_eqb_refl. reflexivity.
    + apply shape_iff in S. apply type_text_iff in T. rewrite S. cbn [bind]. rewrite O, T. cbn [bind].
      apply str_eqb_neq in A. rewrite A. reflexivity.
Qed.
Lemma needs_iff v n : needs v = Some n <-> requires v n.
Proof.
  unfold needs. destruct (standard_type (pv_type v)) eqn:S.
  - apply intrinsic_iff in S. destruct (pv_kind v) as [|c k] eqn:K; cbn [nonempty andb].
    + split; [discriminate|]. intros H. inversion H; subst; try congruence; contradiction.
    + destruct (str_eqb (pv_type v) (L "character")) eqn:C; cbn [negb].
      * apply str_eqb_eq in C. split; [discriminate|]. intros H. inversion H; subst; contradiction.
      * apply str_eqb_neq in C. split; intros H.
        -- injection H as <-. rewrite <- K. constructor; auto. now rewrite K.
        -- inversion H; subst; [now rewrite K|contradiction].
  - apply not_intrinsic in S. split; intros H.
    + injection H as <-. now constructor.
    + inversion H; subst; [contradiction|reflexivity].
Qed.

(* ---------------------------------------------------------------- imports *)
Definition import_ok (defs : pdefs) (n m : str) : Prop := exists kv, assoc defs n = Some kv /\ module_use kv = Ok m.
Lemma uses_inv defs l : forall u u', fold_r (add_use defs) l u = Ok u' ->
  exists ns ms, snd u' = snd u ++ ns /\ fst u' = fst u ++ ms /\ Forall2 (import_ok defs) ns ms /\
    (NoDup (snd u) -> NoDup (snd u')) /\ (forall n, In n (snd u') <-> In n (snd u) \/ In (Some n) l).
Proof.
  induction l as [|o r IH]; cbn [fold_r]; intros u u' H.
  - injection H as <-. exists [], []. rewrite !app_nil_r. split; [reflexivity|]. split; [reflexivity|]. split; [constructor|]. split; [auto|]. intros n. split; [auto|intros [X|[]]; auto].
  - apply bind_inv in H as (w & E & H). apply IH in H as (ns & ms & E1 & E2 & F & N & I). clear IH.
    destruct o as [n|].
    + unfold add_use in E. destruct (mem_s n (snd u)) eqn:M.
      * injection E as <-. exists ns, ms. split; [exact E1|]. split; [exact E2|]. split; [exact F|]. split; [exact N|].
        intros k. rewrite I. apply mem_s_in in M. split; [intros [X|X]; auto; right; now right|].
        intros [X|[X|X]]; auto. injection X as ->. now left.
      * destruct (assoc defs n) as [kv|] eqn:A; [|discriminate]. apply bind_inv in E as (m & U & E). injection E as <-.
        cbn [fst snd] in *. exists (n :: ns), (m :: ms). rewrite <- !app_assoc in *. cbn [app] in *.
        split; [exact E1|]. split; [exact E2|]. split; [constructor; [exists kv; auto|exact F]|].
        assert (NI : ~ In n (snd u)). { intros X. apply mem_s_in in X. congruence. }
        split; [|intros k; rewrite I, in_app_iff; cbn; split; [intros [[X|[X|[]]]|X]; subst; auto|intros [X|[X|X]]; auto; injection X as ->; auto]].
        intros ND. apply N. clear - ND NI. induction (snd u) as [|x s IHs]; cbn.
        -- constructor; [intros []|constructor].
        -- inversion ND; subst. constructor; [rewrite in_app_iff; cbn; intros [X|[X|[]]]; [auto|subst; apply NI; now left]|].
           apply IHs; auto. intros X. apply NI. now right.
    + injection E as <-. exists ns, ms. split; [exact E1|]. split; [exact E2|]. split; [exact F|]. split; [exact N|].
      intros k. rewrite I. split; [intros [X|X]; auto; right; now right|]. intros [X|[X|X]]; auto; discriminate.
Qed.
Lemma uses_ok defs l : forall u, (forall n, In (Some n) l -> In n (snd u) \/ exists m, import_ok defs n m) ->
  exists u', fold_r (add_use defs) l u = Ok u'.
Proof.
  induction l as [|o r IH]; cbn [fold_r]; intros u H; [eauto|].
  assert (X : exists w, add_use defs u o = Ok w /\ forall n, In n (snd u) -> In n (snd w)).
  { destruct o as [n|]; cbn [add_use]; [|eauto]. destruct (mem_s n (snd u)) eqn:M; [eauto|].
    destruct (H n (or_introl eq_refl)) as [I|(m & kv & A & U)]; [apply mem_s_in in I; congruence|].
    rewrite A, U. cbn. eexists. split; [reflexivity|]. cbn. intros k I. apply in_or_app. now left. }
  destruct X as (w & -> & S). cbn [bind]. apply IH. intros n I. destruct (H n (or_intror I)) as [J|J]; auto.
Qed.
Lemma args_inv defs l : forall c c', fold_r (one_arg defs) l c = Ok c' ->
  c_args c' = c_args c ++ map pv_local l /\
  (exists ds, c_defs c' = c_defs c ++ ds /\ Forall2 (fun v d => def_intent defs v = Ok d) l ds) /\
  fold_r (add_use defs) (map needs l) (c_use c, c_seen c) = Ok (c_use c', c_seen c').
Proof.
  induction l as [|v r IH]; cbn [fold_r map]; intros c c' H.
  - injection H as <-. rewrite app_nil_r. split; [reflexivity|]. split; [exists []; rewrite app_nil_r; split; [reflexivity|constructor]|reflexivity].
  - apply bind_inv in H as (w & E & H). unfold one_arg in E. apply bind_inv in E as (d & D & E).
    apply bind_inv in E as (u & U & E). injection E as <-. apply IH in H as (A & (ds & Ds & F) & Us). cbn in *.
    split; [now rewrite A, <- app_assoc|]. split.
    + exists (d :: ds). rewrite Ds, <- app_assoc. split; [reflexivity|now constructor].
    + rewrite U. cbn. now destruct u.
Qed.
Lemma args_ok defs l : forall c, Forall (fun v => exists d, def_intent defs v = Ok d) l ->
  (exists u, fold_r (add_use defs) (map needs l) (c_use c, c_seen c) = Ok u) -> exists c', fold_r (one_arg defs) l c = Ok c'.
Proof.
  induction l as [|v r IH]; cbn [fold_r map]; intros c F U; [eauto|].
  inversion F as [|? ? [d D] F']; subst. destruct U as [u U]. apply bind_inv in U as (w & W & U).
  assert (X : one_arg defs c v = Ok (mkC (c_args c ++ [pv_local v]) (fst w) (c_defs c ++ [d]) (snd w))).
  { unfold one_arg. now rewrite D; cbn [bind]; rewrite W. }
  rewrite X. cbn [bind]. apply IH; [exact F'|]. cbn. exists u. now destruct w.
Qed.
Definition ordered (vars : list pvar) : list pvar := List.filter is_scalar vars ++ List.filter (fun v => negb (is_scalar v)) vars.
Lemma args_part_fold defs vars : args_part defs vars = fold_r (one_arg defs) (ordered vars) (mkC [] [] [] []).
Proof. unfold args_part, ordered. now rewrite fold_r_app. Qed.
Lemma ordered_perm vars : Permutation vars (ordered vars).
Proof.
  unfold ordered. induction vars as [|v r IH]; cbn; [constructor|]. destruct (is_scalar v); cbn [negb].
  - cbn. now constructor.
  - etransitivity; [constructor; exact IH|]. apply Permutation_middle.
Qed.

(* ---------------------------------------------------------------- temporaries *)
Lemma colons_rank v : rank v = match pv_dims v with [] => [] | ds => L "(" ++ join (L ",") (map (fun _ => L ":") ds) ++ L ")" end.
Proof.
  unfold rank. destruct (pv_dims v) as [|d r]; [reflexivity|]. unfold colons. cbn [length].
  replace (List.repeat (L ":") (S (length r))) with (map (fun _ : str => L ":") (d :: r)); [reflexivity|].
  clear. cbn. f_equal. induction r; cbn; f_equal; auto.
Qed.
Lemma def_local_inv ptr v d : def_local ptr v = Ok d -> exists ty, type_spec (pv_type v) (pv_kind v) ty /\
  d = if ptr then ty ++ (match pv_dims v with [] => [] | ds => L ", dimension(" ++ join (L ",") (map (fun _ => L ":") ds) ++ L ")" end) ++ L ", pointer :: p => null()"
      else ty ++ (match pv_dims v with [] => [] | ds => L ", dimension(" ++ join (L ",") (map (fun _ => L ":") ds) ++ L "), allocatable" end) ++ L ", target :: " ++ pv_local v.
Proof.
  unfold def_local. destruct (str_eqb (pv_active v) (L "T")); [|discriminate]. intros H.
  apply bind_inv in H as (ty & T & H). apply Ok_inj in H. subst d. apply type_text_iff in T. exists ty. split; [exact T|].
  rewrite colons_rank. destruct (pv_dims v) as [|x r]; destruct ptr; try reflexivity; cbn [nonempty app L list_ascii_of_string].
  repeat (rewrite <- app_assoc; cbn [app]). reflexivity.
Qed.
Lemma tmp_inv defs l : forall s s', fold_r (one_tmp defs) l s = Ok s' ->
  c_args (fst s') = c_args (fst s) /\
  (exists ds, c_defs (fst s') = c_defs (fst s) ++ ds /\ local_texts (snd s) l ds) /\
  fold_r (add_use defs) (map (fun t => needs_kind (snd t)) l) (c_use (fst s), c_seen (fst s)) = Ok (c_use (fst s'), c_seen (fst s')).
Proof.
  induction l as [|[ptr v] r IH]; cbn [fold_r map]; intros [c ts] s' H.
  - injection H as <-. cbn. split; [reflexivity|]. split; [exists []; rewrite app_nil_r; split; [reflexivity|constructor]|reflexivity].
  - apply bind_inv in H as (w & E & H). unfold one_tmp in E. apply bind_inv in E as (dp & D & E).
    apply bind_inv in E as (u & U & E). injection E as <-. apply IH in H as (A & (ds & Ds & F) & Us). clear IH. cbn [fst snd c_args c_use c_defs c_seen] in *.
    split; [exact A|]. split.
    + destruct ptr.
      * destruct (mem_s (pointer_type v) ts) eqn:M.
        -- injection D as <-. cbn [fst snd] in *. rewrite Ds, <- app_assoc. eexists. split; [reflexivity|].
           cbn [app]. apply lt_known; auto. now apply mem_s_in.
        -- apply bind_inv in D as (p & P & D). injection D as <-. cbn [fst snd] in *. rewrite Ds, <- app_assoc.
           eexists. split; [reflexivity|]. cbn [app]. apply def_local_inv in P as (ty & T & ->).
           apply lt_new; auto. intros X. apply mem_s_in in X. congruence.
      * apply bind_inv in D as (p & P & D). injection D as <-. cbn [fst snd] in *. rewrite Ds, <- app_assoc.
        eexists. split; [reflexivity|]. cbn [app]. apply def_local_inv in P as (ty & T & ->). now apply lt_var.
    + rewrite U. cbn. now destruct u.
Qed.
