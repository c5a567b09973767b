(* LnProofs.v: the full names of host variables. *)
From Coq Require Import List Ascii String ZArith Bool Lia.
From Verif Require Import PyStr Base CheckModel CheckProofs ReqModel ReqProofs CommonModel CommonSpec CommonProps ParModel ParProofs ArProofs SzProofs LnModel LnSpec.
Import ListNotations.
Open Scope nat_scope. Open Scope list_scope.

(* ---- texts ---- *)
Lemma balanced_plain (s : str) : ~ In "("%char s -> ~ In ")"%char s -> balanced s.
Proof.
  induction s as [|c s IH]; intros A B; [constructor|]. change (c :: s) with ([c] ++ s). constructor.
  - constructor; intros ->; [apply A|apply B]; now left.
  - apply IH; intros X; [apply A|apply B]; now right.
Qed.
Lemma in_join c sep (l : list str) : In c (join sep l) -> (exists x, In x l /\ In c x) \/ In c sep.
Proof.
  induction l as [|x l IH]; [intros []|]. destruct l as [|y l]; [cbn; intros H; left; eauto|].
  intros H. change (join sep (x :: y :: l)) with (x ++ sep ++ join sep (y :: l)) in H. apply in_app_or in H as [H|H]; [left; exists x; split; [now left|exact H]|].
  apply in_app_or in H as [H|H]; [now right|]. destruct (IH H) as [(z & A & B)|B]; [left; exists z; split; [now right|exact B]|now right].
Qed.
Lemma rstrip_c_paren (s : str) : ~ In ")"%char s -> rstrip_c ")" (s ++ L ")") = s.
Proof.
  intros N. unfold rstrip_c. rewrite rev_app_distr. cbn [rev app].
  assert (D : dropwhile (Ascii.eqb ")") (")"%char :: rev s) = dropwhile (Ascii.eqb ")") (rev s)) by reflexivity.
  change (L ")") with [")"%char]. cbn [rev app]. rewrite D. destruct (rev s) as [|c t] eqn:E; [apply (f_equal (@rev ascii)) in E; rewrite rev_involutive in E; now subst|].
  cbn [dropwhile]. destruct (Ascii.eqb_spec ")" c) as [<-|K].
  - exfalso. apply N. apply in_rev. rewrite E. now left.
  - rewrite <- E. apply rev_involutive.
Qed.
Lemma subscripted_split l base refs : subscripted l base refs ->
  has_char "(" l = true /\ split_var_name l = Some (base, L "(" ++ join (L ",") refs ++ L ")") /\ split_on "," (inside (L "(" ++ join (L ",") refs ++ L ")")) = refs.
Proof.
  intros (-> & N & C).
  assert (NP : forall c, c = "("%char \/ c = ")"%char -> ~ In c (join (L ",") refs)).
  { intros c H I. apply in_join in I as [(x & I & J)|[I|[]]]; [|destruct H; subst; discriminate]. destruct (C x I) as (_ & A & B). destruct H as [-> | ->]; auto. }
  repeat split.
  - apply has_char_in, in_or_app. right. now left.
  - apply C68_array, balanced_plain; apply NP; auto.
  - unfold inside. assert (E : dropwhile (Ascii.eqb "(") (L "(" ++ join (L ",") refs ++ L ")") = join (L ",") refs ++ L ")").
    { change (L "(" ++ join (L ",") refs ++ L ")") with ("("%char :: (join (L ",") refs ++ L ")")). cbn [dropwhile]. change (Ascii.eqb "(" "(") with true. cbv iota.
      destruct (join (L ",") refs) as [|c t] eqn:J; [reflexivity|]. cbn [app dropwhile]. destruct (Ascii.eqb_spec "(" c) as [<-|K]; [|reflexivity].
      exfalso. apply (NP "("%char (or_introl eq_refl)). now left. }
    rewrite E, rstrip_c_paren by (apply NP; auto). apply split_join; auto. intros p I. now apply C.
Qed.
Lemma subscripted_unique l b r b' r' : subscripted l b r -> subscripted l b' r' -> b = b' /\ r = r'.
Proof.
  intros A B. apply subscripted_split in A as (_ & A1 & A2). apply subscripted_split in B as (_ & B1 & B2).
  rewrite A1 in B1. assert (E := f_equal (fun o => match o with Some p => p | None => ([], []) end) B1). cbn beta iota in E.
  apply pair_equal_spec in E as [E1 E2]. split; [exact E1|]. rewrite E2 in A2. congruence.
Qed.
Lemma plain_not_subscripted l b r : ~ In "("%char l -> ~ subscripted l b r.
Proof. intros N (-> & _). apply N, in_or_app. right. now left. Qed.

(* ---- full names ---- *)
Lemma F2_mono {A B} (P Q : A -> B -> Prop) l m : (forall x y, P x y -> Q x y) -> Forall2 P l m -> Forall2 Q l m.
Proof. induction 2; constructor; auto. Qed.
Lemma bound_mono (P Q : str -> str -> Prop) b t : (forall s t, P s t -> Q s t) -> bound_is P b t -> bound_is Q b t.
Proof. intros H [X|[X Y]]; [now left|right; auto]. Qed.
Lemma index_mono (P Q : str -> str -> Prop) b t : (forall s t, P s t -> Q s t) -> index_is P b t -> index_is Q b t.
Proof.
  intros H [X|(N & bs & ts & A & B & C & D & E)]; [now left|right]. split; [exact N|]. exists bs, ts. repeat split; auto.
  eapply F2_mono; [|exact D]. intros x y. now apply bound_mono.
Qed.
Lemma full_mono tds m n : forall k s t, n <= k -> full_name n tds m s t -> full_name k tds m s t.
Proof.
  induction n as [|n IH]; intros k s t LE H; [destruct H|]. destruct k as [|k]; [lia|]. destruct H as (v & I & H). exists v. split; [exact I|].
  destruct H as [H|(p & name & C & W & H)]; [now left|right]. exists p, name. repeat split; auto.
  destruct H as [H|(base & refs & ts & A & F & E)]; [now left|right]. exists base, refs, ts. split; [exact A|]. split; [|exact E].
  eapply F2_mono; [|exact F]. intros x y. apply index_mono. intros s' t'. apply IH. lia.
Qed.
Lemma F2_gather {A B} (P : nat -> A -> B -> Prop) l m : (forall n k x y, n <= k -> P n x y -> P k x y) ->
  Forall2 (fun x y => exists n, P n x y) l m -> exists n, Forall2 (P n) l m.
Proof.
  intros M. induction 1 as [|x y l m (n & H) F (k & IH)]; [exists 0; constructor|]. exists (Nat.max n k). constructor.
  - eapply M; [|exact H]. lia.
  - eapply F2_mono; [|exact IH]. intros a b. apply M. lia.
Qed.
Lemma F2_fun {A B} (P Q : A -> B -> Prop) l : forall m m', (forall x y z, P x y -> Q x z -> y = z) -> Forall2 P l m -> Forall2 Q l m' -> m = m'.
Proof.
  induction l as [|x l IH]; intros m m' H F G; inversion F; inversion G; subst; [reflexivity|]. f_equal; eauto.
Qed.
Lemma configured_unique tds v p q : tidy_typedefs tds -> configured tds v p -> configured tds v q -> p = q.
Proof.
  intros (N & T) A B. assert (U : forall types types', In (n_module v, types) tds -> In (n_module v, types') tds -> types = types').
  { intros ty ty' I J. apply in_assoc in I; auto. apply in_assoc in J; auto. congruence. }
  assert (V : forall types t p q, In (n_module v, types) tds -> In (t, p) types -> In (t, q) types -> p = q).
  { intros ty t p' q' I J K. assert (ND := T _ _ I). apply in_assoc in J; auto. apply in_assoc in K; auto. congruence. }
  destruct A as [ty t I T1 J|ty I T1 J]; destruct B as [ty' t' I' T1' J'|ty' I' T1' J']; assert (ty = ty') by eauto; subst ty'; try congruence; try (assert (t = t') by congruence; subst t'); eauto.
Qed.
Lemma bound_fun (P Q : str -> str -> Prop) b t u : (forall s x y, P s x -> Q s y -> x = y) -> bound_is P b t -> bound_is Q b u -> t = u.
Proof. intros H [[A B]|[A B]] [[C D]|[C D]]; try congruence; eauto. Qed.
Lemma index_fun (P Q : str -> str -> Prop) b t u : (forall s x y, P s x -> Q s y -> x = y) -> index_is P b t -> index_is Q b u -> t = u.
Proof.
  intros H [[A B]|(A & bs & ts & B1 & B2 & B3 & B4 & B5)] [[C D]|(C & bs' & ts' & D1 & D2 & D3 & D4 & D5)]; try congruence.
  assert (bs = bs'). { rewrite B1 in D1. apply (f_equal (split_on ":"%char)) in D1. rewrite !split_join in D1 by auto. exact D1. } subst bs'.
  assert (ts = ts') by (eapply F2_fun; [|exact B4|exact D4]; intros x y z; now apply bound_fun). subst ts'. congruence.
Qed.
Lemma full_fun tds m : NoDup (map fst m) -> tidy_typedefs tds -> forall n k s t u, full_name n tds m s t -> full_name k tds m s u -> t = u.
Proof.
  intros ND TT. induction n as [|n IH]; intros k s t u H G; [destruct H|]. destruct k as [|k]; [destruct G|].
  destruct H as (v & I & H). destruct G as (w & J & G). apply in_assoc in I; auto. apply in_assoc in J; auto. assert (v = w) by congruence. subst w.
  assert (NC : forall p, configured tds v p -> ~ forall types, ~ In (n_module v, types) tds).
  { intros p [ty t' A _ _|ty A _ _] N; eapply N; eauto. }
  destruct H as [[H1 H2]|(p & name & C & W & H)]; destruct G as [[G1 G2]|(q & name' & C' & W' & G)].
  - congruence.
  - exfalso. eapply NC; eauto.
  - exfalso. eapply NC; eauto.
  - assert (p = q) by (eapply configured_unique; eauto). subst q.
    assert (name = name').
    { destruct H as [[H1 H2]|(b & r & ts & H1 & H2 & H3)]; destruct G as [[G1 G2]|(b' & r' & ts' & G1 & G2 & G3)].
      - congruence.
      - exfalso. eapply plain_not_subscripted; eauto.
      - exfalso. eapply plain_not_subscripted; eauto.
      - destruct (subscripted_unique _ _ _ _ _ H1 G1) as [<- <-]. assert (ts = ts') by (eapply F2_fun; [|exact H2|exact G2]; intros x y z; apply index_fun; intros; eapply IH; eauto).
        subst. reflexivity. }
    subst name'. destruct W as [[W1 W2]|[W1 W2]]; destruct W' as [[W1' W2']|[W1' W2']]; congruence.
Qed.

(* ---- the state ---- *)
Lemma set_fst s t m : map fst (set_local s t m) = map fst m.
Proof. unfold set_local. rewrite map_map. apply map_ext. intros [k v]. cbn. now destruct (str_eqb k s). Qed.
Lemma assoc_set s t (m : meta) k : assoc (set_local s t m) k =
  match assoc m k with Some v => Some (if str_eqb k s then mkN t (n_module v) (n_type v) (n_multiple v) else v) | None => None end.
Proof.
  induction m as [|[j w] m IH]; [reflexivity|]. cbn [set_local map fst snd].
  destruct (str_eqb j s) eqn:E.
  - cbn [assoc]. destruct (str_eqb j k) eqn:F; [|exact IH]. apply str_eqb_eq in F. subst j. now rewrite E.
  - cbn [assoc]. destruct (str_eqb j k) eqn:F; [|exact IH]. apply str_eqb_eq in F. subst j. now rewrite E.
Qed.
Lemma set_same s t (m : meta) : NoDup (map fst m) -> (forall v, assoc m s = Some v -> n_local v = t) -> set_local s t m = m.
Proof.
  intros ND H. unfold set_local. rewrite <- (map_id m) at 2. apply map_ext_in. intros [k v] I. cbn [fst snd].
  destruct (str_eqb k s) eqn:E; [|reflexivity]. apply str_eqb_eq in E. subst k. rewrite <- (H v) by now apply in_assoc. now destruct v.
Qed.
Section Inv.
Context (tds : typedefs) (m0 : meta) (TD : tidy m0) (TT : tidy_typedefs tds) (done : list str).
Definition full (s t : str) : Prop := exists n, full_name n tds m0 s t.
Definition invariant (x : state) : Prop :=
  map fst (fst x) = map fst m0 /\
  forall s v0, assoc m0 s = Some v0 -> exists v, assoc (fst x) s = Some v /\ n_module v = n_module v0 /\ n_type v = n_type v0 /\ n_multiple v = n_multiple v0 /\
    ((~ In s (snd x) /\ n_local v = n_local v0) \/ (In s (snd x) /\ full s (n_local v))) /\ (In s done -> full s (n_local v)).
Definition put (s t : str) (x : state) : state := (set_local s t (fst x), snd x).
Lemma inv_nodup x : invariant x -> NoDup (map fst (fst x)).
Proof. intros (E & _). rewrite E. apply TD. Qed.
Lemma inv_back x s v : invariant x -> assoc (fst x) s = Some v -> exists v0, assoc m0 s = Some v0.
Proof.
  intros (E & _) A. apply assoc_in in A. assert (I : In s (map fst m0)) by (rewrite <- E; apply in_map_iff; exists (s, v); auto).
  apply in_map_iff in I as ((k & w) & K & I). cbn in K. subst k. exists w. apply in_assoc; auto. apply TD.
Qed.
Lemma each_sound {A B} (step : A -> state -> res (option B * state)) (Q : A -> B -> Prop) :
  (forall a x b x', invariant x -> step a x = Ok (Some b, x') -> Q a b /\ invariant x') ->
  forall l x l' x', invariant x -> each step l x = Ok (Some l', x') -> Forall2 Q l l' /\ invariant x'.
Proof.
  intros H. induction l as [|a l IH]; intros x l' x' I E; cbn in E.
  - injection E as <- <-. split; [constructor|exact I].
  - apply bind_inv in E as ([[b|] y] & S1 & E); [|discriminate]. apply bind_inv in E as ([[bs|] z] & S2 & E); [|discriminate].
    cbn in E. injection E as <- <-. destruct (H _ _ _ _ I S1) as [HQ J]. destruct (IH _ _ _ J S2) as [F K]. split; [now constructor|exact K].
Qed.
Definition conv_good (conv : str -> state -> res (option str * state)) : Prop :=
  forall s x t x', invariant x -> conv s x = Ok (Some t, x') -> full s t /\ invariant (put s t x').
Lemma keep_eq s t x v : invariant (put s t x) -> NoDup (map fst (fst x)) -> assoc (fst x) s = Some v ->
  invariant (if str_eqb (n_local v) t then x else (set_local s t (fst x), snd x)).
Proof.
  intros I ND A. destruct (str_eqb (n_local v) t) eqn:E; [|exact I]. apply str_eqb_eq in E.
  unfold put in I. rewrite (set_same s t (fst x) ND) in I; [destruct x; exact I|intros w W; congruence].
Qed.
Lemma put_nodup s t x : invariant (put s t x) -> NoDup (map fst (fst x)).
Proof. intros I. apply inv_nodup in I. cbn in I. now rewrite set_fst in I. Qed.
Lemma bound_sound conv : conv_good conv -> forall b x t x', invariant x -> one_bound conv b x = Ok (Some t, x') -> (exists n, bound_is (full_name n tds m0) b t) /\ invariant x'.
Proof.
  intros G b x t x' I E. unfold one_bound in E. destruct (py_int (strip b)) eqn:P.
  - injection E as <- <-. split; [|exact I]. exists 0. left. split; [congruence|reflexivity].
  - apply bind_inv in E as ([[u|] y] & C & E); [|discriminate]. destruct (assoc (fst y) (strip b)) as [v|] eqn:Q; [|discriminate].
    assert (E' : u = t /\ (if str_eqb (n_local v) u then y else (set_local (strip b) u (fst y), snd y)) = x') by (injection E; auto).
    destruct E' as [<- <-]. destruct (G _ _ _ _ I C) as ((n & F) & J). split; [exists n; right; auto|]. eapply keep_eq; eauto using put_nodup.
Qed.
Lemma index_sound conv : conv_good conv -> forall b x t x', invariant x -> one_index conv b x = Ok (Some t, x') -> (exists n, index_is (full_name n tds m0) b t) /\ invariant x'.
Proof.
  intros G b x t x' I E. unfold one_index in E. destruct (str_eqb (strip b) (L ":")) eqn:P.
  - apply str_eqb_eq in P. assert (E' : strip b = t /\ x = x') by (injection E; auto). destruct E' as [<- <-]. split; [|exact I]. exists 0. left. auto.
  - apply str_eqb_neq in P. apply bind_inv in E as ([[ts|] y] & C & E); cbn in E; [|discriminate]. injection E as <- <-.
    destruct (each_sound _ _ (bound_sound conv G) _ _ _ _ I C) as [F J]. split; [|exact J].
    apply (F2_gather (fun n => bound_is (full_name n tds m0))) in F as (n & F).
    + exists n. right. split; [exact P|]. exists (split_on ":" (strip b)), ts. repeat split; auto.
      * symmetry. apply join_split.
      * apply split_on_nonempty.
      * intros c D. eapply split_on_no_sep; eauto.
    + intros i k c d LE. apply bound_mono. intros. eapply full_mono; eauto.
Qed.
Lemma configured_iff v p : configured tds v p <-> exists types, assoc tds (n_module v) = Some types /\ assoc types (match n_type v with Some t => t | None => n_module v end) = Some p.
Proof.
  destruct TT as [N T]. split.
  - intros [ty t I E J|ty I E J]; exists ty; rewrite E; (split; apply in_assoc; eauto).
  - intros (ty & A & B). apply assoc_in in A. apply assoc_in in B. destruct (n_type v) eqn:E; [eapply C_type|eapply C_module]; eauto.
Qed.
Lemma prefixed_iff p name t : with_reference p name t <-> t = prefixed p name.
Proof.
  unfold with_reference, prefixed. destruct p; split; [intros [[_ H]|[H _]]|intros ->|intros [[H _]|[_ H]]|intros ->]; auto; try congruence. right. split; [discriminate|reflexivity].
Qed.
Lemma assoc_put s t x k : assoc (fst (put s t x)) k = match assoc (fst x) k with Some v => Some (if str_eqb k s then mkN t (n_module v) (n_type v) (n_multiple v) else v) | None => None end.
Proof. apply assoc_set. Qed.
Lemma put_inv s t x c : invariant x -> full s t -> (forall k, In k c <-> In k (snd x) \/ k = s) -> invariant (set_local s t (fst x), c).
Proof.
  intros (E & H) F C. split; [cbn; now rewrite set_fst|]. intros k v0 A. destruct (H k v0 A) as (v & B & M & T & U & X & DN). cbn [fst snd]. rewrite assoc_set, B.
  destruct (str_eqb k s) eqn:K.
  - apply str_eqb_eq in K. subst k. eexists. split; [reflexivity|]. cbn [n_local n_module n_type n_multiple]. split; [exact M|]. split; [exact T|]. split; [exact U|]. split; [right; split; [apply C; now right|exact F]|intros _; exact F].
  - apply str_eqb_neq in K. exists v. split; [reflexivity|]. split; [exact M|]. split; [exact T|]. split; [exact U|]. split; [|exact DN]. destruct X as [[X1 X2]|[X1 X2]]; [left|right]; (split; [|exact X2]).
    + rewrite C. intros [Y|Y]; auto.
    + apply C. now left.
Qed.
Lemma convert_sound f : conv_good (convert f tds).
Proof.
  induction f as [|f IH]; intros s x t x' I E; [discriminate|]. cbn [convert] in E. destruct (assoc (fst x) s) as [v|] eqn:A; [|discriminate].
  destruct (inv_back _ _ _ I A) as (v0 & A0). destruct (proj2 I _ _ A0) as (v' & B & M & T & U & X & DN). assert (v' = v) by congruence. subst v'. clear B.
  destruct (mem s (snd x)) eqn:Q.
  - apply mem_in in Q. assert (E' : n_local v = t /\ x = x') by (injection E; auto). destruct E' as [<- <-].
    destruct X as [[X _]|[_ X]]; [contradiction|]. split; [exact X|]. unfold put. rewrite set_same; [now destruct x|now apply inv_nodup|congruence].
  - apply mem_not in Q. destruct X as [[_ X]|[X _]]; [|contradiction]. destruct (assoc tds (n_module v)) as [types|] eqn:D.
    + destruct (assoc types (match n_type v with Some t => t | None => n_module v end)) as [p|] eqn:P; [|discriminate].
      apply bind_inv in E as ([[name|] y] & R & E); [|discriminate].
      assert (E' : prefixed p name = t /\ (fst y, snd y ++ [s]) = x') by (injection E; auto). destruct E' as [<- <-].
      assert (CF : configured tds v0 p). { apply configured_iff. rewrite <- M, <- T. eauto. }
      assert (W : with_reference p name (prefixed p name)) by now apply prefixed_iff.
      assert (K : invariant y /\ full s (prefixed p name)).
      { unfold convert_reference in R. destruct (has_char "(" (n_local v)) eqn:HC.
        - destruct (proj2 TD s v0 (assoc_in _ _ _ A0)) as [N|(base & refs & SB)].
          + apply has_char_in in HC. rewrite X in HC. contradiction.
          + destruct (subscripted_split _ _ _ SB) as (_ & S1 & S2). rewrite X, S1, S2 in R. apply bind_inv in R as ([[ts|] z] & C & R); cbn in R; [|discriminate].
            assert (E' : base ++ L "(" ++ join (L ",") ts ++ L ")" = name /\ z = y) by (injection R; auto). destruct E' as [<- <-].
            destruct (each_sound _ _ (index_sound _ IH) _ _ _ _ I C) as [F J]. split; [exact J|].
            apply (F2_gather (fun n => index_is (full_name n tds m0))) in F as (n & F).
            * exists (S n), v0. split; [now apply assoc_in|]. right. exists p, (base ++ L "(" ++ join (L ",") ts ++ L ")"). repeat split; auto. right. exists base, refs, ts. split; [exact SB|]. split; [exact F|reflexivity].
            * intros i k c d LE. apply index_mono. intros. eapply full_mono; eauto.
        - assert (E' : n_local v = name /\ x = y) by (injection R; auto). destruct E' as [<- <-]. split; [exact I|]. apply has_char_out in HC.
          exists 1, v0. split; [now apply assoc_in|]. right. exists p, (n_local v). repeat split; auto. left. rewrite <- X. auto. }
      destruct K as [K F]. split; [exact F|]. unfold put. cbn [fst snd]. apply put_inv; auto. intros k. rewrite in_app_iff. cbn. intuition congruence.
    + assert (E' : n_local v = t /\ x = x') by (injection E; auto). destruct E' as [<- <-]. split.
      * exists 1, v0. split; [now apply assoc_in|]. left. split; [|congruence]. rewrite <- M. now apply assoc_none.
      * unfold put. rewrite set_same; [now destruct x|now apply inv_nodup|congruence].
Qed.

(* ---- conversion succeeds ---- *)
Lemma each_ok {A B} (step : A -> state -> res (option B * state)) l :
  (forall a x, In a l -> invariant x -> exists b x', step a x = Ok (Some b, x') /\ invariant x') ->
  forall x, invariant x -> exists l' x', each step l x = Ok (Some l', x') /\ invariant x'.
Proof.
  induction l as [|a l IH]; intros H x I; cbn; [eauto|]. destruct (H a x (or_introl eq_refl) I) as (b & y & -> & J). cbn.
  destruct (IH (fun a' x' K => H a' x' (or_intror K)) y J) as (bs & z & -> & K). cbn. eauto.
Qed.
Lemma F2_left {A B} (P : A -> B -> Prop) l m a : Forall2 P l m -> In a l -> exists b, P a b.
Proof. induction 1; intros []; subst; eauto. Qed.
Lemma convert_ok n : forall s t f x, full_name n tds m0 s t -> n <= f -> invariant x -> exists u x', convert f tds s x = Ok (Some u, x').
Proof.
  induction n as [|n IH]; intros s t f x H LE I; [destruct H|]. destruct f as [|f]; [lia|]. destruct H as (v0 & J & H).
  apply in_assoc in J; [|apply TD]. destruct (proj2 I _ _ J) as (v & A & M & T & U & X & _). cbn [convert]. rewrite A.
  destruct (mem s (snd x)) eqn:Q; [eauto|]. apply mem_not in Q. destruct X as [[_ X]|[X _]]; [|contradiction].
  destruct H as [[H _]|(p & name & C & W & H)].
  - rewrite M. destruct (assoc tds (n_module v0)) eqn:D; [|eauto]. apply assoc_in in D. elim (H _ D).
  - apply configured_iff in C as (types & C1 & C2). rewrite M, T, C1, C2.
    assert (K : exists nm y, convert_reference (convert f tds) (n_local v) x = Ok (Some nm, y)).
    { unfold convert_reference. rewrite X. destruct H as [[H _]|(base & refs & ts & SB & F & _)].
      - apply has_char_out in H. rewrite H. eauto.
      - destruct (subscripted_split _ _ _ SB) as (-> & -> & ->).
        assert (KB : forall b x, (exists t, bound_is (full_name n tds m0) b t) -> invariant x -> exists t x', one_bound (convert f tds) b x = Ok (Some t, x') /\ invariant x').
        { intros b y (tb & B) IY. unfold one_bound. destruct B as [[B _]|[B1 B2]].
          - destruct (py_int (strip b)); [eauto|congruence].
          - rewrite B1. destruct (IH _ _ f y B2 ltac:(lia) IY) as (u & z & E). rewrite E. cbn. destruct (convert_sound f _ _ _ _ IY E) as (_ & IZ).
            assert (NZ := put_nodup _ _ _ IZ).
            assert (AZ : exists w, assoc (fst z) (strip b) = Some w).
            { destruct n as [|n']; [destruct B2|]. destruct B2 as (w0 & W0 & _). apply in_assoc in W0; [|apply TD]. destruct (proj2 IZ _ _ W0) as (w & W1 & _).
              rewrite assoc_put in W1. destruct (assoc (fst z) (strip b)); [eauto|discriminate]. }
            destruct AZ as (w & AZ). rewrite AZ. eexists _, _. split; [reflexivity|]. eapply keep_eq; eauto. }
        destruct (each_ok (one_index (convert f tds)) refs) with (x := x) as (l' & y & E & _); auto; [|rewrite E; cbn; eauto].
        intros r y IR IY. destruct (F2_left _ _ _ _ F IR) as (tr & R). unfold one_index. destruct R as [[R _]|(R & bs & us & R1 & R2 & R3 & R4 & _)].
        + rewrite R, str_eqb_refl. eauto.
        + assert (NE : str_eqb (strip r) (L ":") = false) by now apply str_eqb_neq. rewrite NE.
          assert (SB2 : split_on ":" (strip r) = bs) by (rewrite R1; now apply split_join). rewrite SB2.
          destruct (each_ok (one_bound (convert f tds)) bs) with (x := y) as (l2 & z & E & IZ); auto; [|rewrite E; cbn; eauto].
          intros b w IB IW. apply KB; auto. eapply F2_left; eauto. }
    destruct K as (nm & y & ->). cbn. eauto.
Qed.
End Inv.

(* ---- the loop over the variables ---- *)
Lemma inv_more tds m0 done x k v : invariant tds m0 done x -> assoc (fst x) k = Some v -> full tds m0 k (n_local v) -> invariant tds m0 (k :: done) x.
Proof.
  intros (E & H) A F. split; [exact E|]. intros s v0 S0. destruct (H s v0 S0) as (w & B & M & T & U & X & DN).
  exists w. split; [exact B|]. split; [exact M|]. split; [exact T|]. split; [exact U|]. split; [exact X|]. intros [<-|J]; [|auto]. assert (w = v) by congruence. now subst.
Qed.
Lemma set_eq tds m0 done s t x v : tidy m0 -> invariant tds m0 done (put s t x) -> assoc (fst x) s = Some v ->
  (if str_eqb (n_local v) t then x else (set_local s t (fst x), snd x)) = put s t x.
Proof.
  intros TD I A. destruct (str_eqb (n_local v) t) eqn:E; [|reflexivity]. apply str_eqb_eq in E. unfold put. rewrite set_same; [now destruct x| |intros w W; congruence].
  now apply put_nodup in I.
Qed.
Lemma gather_sound tds m0 f keys : tidy m0 -> tidy_typedefs tds -> forall done x m, invariant tds m0 done x -> gather f tds keys x = Ok (Three m) ->
  exists c, invariant tds m0 (rev keys ++ done) (m, c).
Proof.
  intros TD TT. induction keys as [|k keys IH]; intros done x m I E.
  - cbn in E. injection E as <-. exists (snd x). now destruct x.
  - cbn [gather] in E. destruct (assoc (fst x) k) as [v|] eqn:A; [|discriminate]. destruct (n_multiple v); [discriminate|].
    apply bind_inv in E as ([[t|] y] & C & E); [|discriminate]. destruct (assoc (fst y) k) as [w|] eqn:B; [|discriminate].
    destruct (convert_sound _ _ TD TT _ _ _ _ _ _ I C) as (F & J). rewrite (set_eq _ _ _ _ _ _ _ TD J B) in E.
    assert (P : assoc (fst (put k t y)) k = Some (mkN t (n_module w) (n_type w) (n_multiple w))) by (rewrite assoc_put, B, str_eqb_refl; reflexivity).
    cbn [rev]. rewrite <- app_assoc. cbn [app]. eapply IH; [|exact E]. eapply inv_more; eauto.
Qed.
Lemma gather_ok tds m0 f keys n : tidy m0 -> tidy_typedefs tds -> n <= f ->
  (forall k, In k keys -> exists v t, assoc m0 k = Some v /\ n_multiple v = false /\ full_name n tds m0 k t) ->
  forall done x, invariant tds m0 done x -> exists m, gather f tds keys x = Ok (Three m).
Proof.
  intros TD TT LE. induction keys as [|k keys IH]; intros H done x I; cbn [gather]; [eauto|].
  destruct (H k (or_introl eq_refl)) as (v0 & t & A0 & M0 & F). destruct (proj2 I _ _ A0) as (v & A & _ & _ & U & _). rewrite A, U, M0.
  destruct (convert_ok _ _ TD TT _ _ _ _ _ _ F LE I) as (u & y & C). rewrite C. cbn [bind]. destruct (convert_sound _ _ TD TT _ _ _ _ _ _ I C) as (_ & J).
  assert (B : exists w, assoc (fst y) k = Some w).
  { destruct (proj2 J _ _ A0) as (w & W & _). rewrite assoc_put in W. destruct (assoc (fst y) k); [eauto|discriminate]. }
  destruct B as (w & B). rewrite B, (set_eq _ _ _ _ _ _ _ TD J B). eapply IH; [|exact J]. intros j K. apply H. now right.
Qed.
Lemma inv_start tds m0 : tidy m0 -> invariant tds m0 [] (m0, []).
Proof.
  intros TD. split; [reflexivity|]. intros s v A. exists v. split; [exact A|]. split; [reflexivity|]. split; [reflexivity|]. split; [reflexivity|]. split; [left; split; [intros []|reflexivity]|intros []].
Qed.
