(* CsDim.v: dimension strings. *)
From Verif Require Import PyStr Regex PhaseSpec CheckModel CheckSpec CheckProofs DictModel DictProofs HdrModel HdrProofs CsModel CsSpec CsProofs CsMore.
Open Scope nat_scope.
Open Scope list_scope.

Lemma add_given explicit dim : (explicit || (length (split_on ":" dim) =? 1)) = true <-> given explicit dim.
Proof.
  unfold given, no_char. rewrite orb_true_iff. split; (intros [H|H]; [now left|right]).
  - apply Nat.eqb_eq in H. destruct (split_on ":" dim) as [|x [|y l]] eqn:E; try discriminate. intros I. rewrite <- (join_split ":" dim), E in I. cbn [join] in I.
    assert (X := split_on_no_sep ":"%char dim x). rewrite E in X. exact (X (or_introl eq_refl) I).
  - now rewrite split_single.
Qed.
Lemma first_with_spec ds s : match first_with ds s with
  | Some (d, o) => exists a b, ds = a ++ d :: b /\ find d s = Some o /\ forall d', In d' a -> find d' s = None
  | None => forall d, In d ds -> find d s = None
  end.
Proof.
  induction ds as [|d ds IH]; cbn [first_with]; [intros d []|]. destruct (find d s) as [o|] eqn:F; [exists [], ds; split; auto; split; auto; intros d' []|].
  destruct (first_with ds s) as [[d' o]|].
  - destruct IH as (a & b & -> & Fo & N). exists (d :: a), b. split; auto. split; auto. intros x [<-|I]; auto.
  - intros x [<-|I]; auto.
Qed.
Lemma find_none_keys d s : find d s = None -> s <> const_one /\ ~ In s (map fst d).
Proof. destruct (find_cases d s) as [[-> ->]|[N ->]]; [discriminate|]. intros G. split; auto. now apply get_none_iff. Qed.
Lemma match_inv f d dim r : dim_match (call_string f) d dim = Ok r ->
  match r with
  | Some t => exists names ts, t = join colon ts /\ In (dim, names) loop_dims /\ Forall2 (fun s t => exists o, find d s = Some o /\ call_string f d None o = Ok t) names ts
  | None => forall names, ~ cut d dim names
  end.
Proof.
  unfold dim_match. pose proof (substs_spec dim) as S. destruct (get dim loop_dim_substs) as [sub|].
  - intros H. apply b_inv in H as (r' & C & H). apply Ok_eq in H. subst r. apply collect_inv in C. destruct r' as [ts|]; cbn [option_map].
    + exists (split_on ":" sub), ts. auto.
    + destruct C as (s & I & Fs). eapply not_cut; eauto.
  - intros H. apply Ok_eq in H. subst r. intros names [LD _]. now apply S in LD.
Qed.
Lemma first_match_inv f dim : forall ds r, first_match (call_string f) ds dim = Ok r ->
  match r with
  | Some t => exists a d b names ts, ds = a ++ d :: b /\ (forall d' names', In d' a -> ~ cut d' dim names') /\ t = join colon ts /\ In (dim, names) loop_dims /\
      Forall2 (fun s t => exists o, find d s = Some o /\ call_string f d None o = Ok t) names ts
  | None => forall d names, In d ds -> ~ cut d dim names
  end.
Proof.
  induction ds as [|d ds IH]; intros r H; cbn [first_match] in H; [apply Ok_eq in H; subst; intros d names []|].
  apply b_inv in H as (r' & M & H). apply match_inv in M. destruct r' as [t|].
  - apply Ok_eq in H. subst r. destruct M as (names & ts & E & LD & F). exists [], d, ds, names, ts. split; [reflexivity|]. split; [intros d' names' []|]. auto.
  - specialize (IH _ H). destruct r as [t|].
    + destruct IH as (a & d1 & b & names & ts & -> & N & Q). exists (d :: a), d1, b, names, ts. split; auto. split; auto. intros d' names' [<-|I]; auto.
    + intros d' names [<-|I]; auto.
Qed.
Lemma all_some_inv {A} (l : list (option A)) : forall r, all_some l = Some r -> l = map Some r.
Proof.
  induction l as [|x l IH]; intros r H; [injection H as <-; reflexivity|]. destruct x as [a|]; [|discriminate H]. cbn [all_some] in H.
  destruct (all_some l) as [q|]; [|discriminate H]. cbn [option_map] in H. injection H as <-. cbn [map]. f_equal. now apply IH.
Qed.
Lemma all_some_map {A} (r : list A) : all_some (map Some r) = Some r.
Proof. induction r as [|a r IH]; cbn; auto. now rewrite IH. Qed.
Lemma all_some_ex {A} (l : list (option A)) : (forall x, In x l -> x <> None) -> exists r, all_some l = Some r.
Proof.
  induction l as [|[a|] l IH]; intros H; cbn; [eauto| |elim (H None (or_introl eq_refl) eq_refl)]. destruct IH as (r & ->); [intros; apply H; now right|]. cbn. eauto.
Qed.
Lemma F2_map_r {A B C} (P : A -> B -> Prop) (g : C -> B) la lc : Forall2 P la (map g lc) -> Forall2 (fun a c => P a (g c)) la lc.
Proof. revert la. induction lc as [|c lc IH]; cbn; intros la H; inversion H; subst; constructor; auto. Qed.

(* the bounds v names are scalars *)
Definition bounds_ok (ds : list dict) (v : var) : Prop :=
  forall d s o, In d ds -> mentions (OV v) s -> In (s, o) d -> scalar o.
Lemma names_sound f ds s t : (forall d, In d ds -> tidy_loop d) -> (forall d o, In d ds -> In (s, o) d -> scalar o) ->
  dim_name (call_string f) ds s = Ok (Some t) -> forall m, exists x, first_val ds m s x /\ part_text m t x.
Proof.
  intros TL SC H m. unfold dim_name in H. pose proof (first_with_spec ds s) as W. destruct (first_with ds s) as [[d o]|]; [|discriminate].
  apply b_inv in H as (t' & C & H). apply Ok_eq in H. injection H as ->. destruct W as (a & b & E & Fo & N).
  assert (Id : In d ds) by (rewrite E; apply in_elt). assert (T := l_tidy _ (TL d Id)).
  assert (NA : forall d', In d' a -> ~ In s (map fst d')) by (intros d' I; eapply find_none_keys; eauto).
  destruct (find_cases d s) as [[Es Fs]|[NC Fs]]; rewrite Fs in Fo.
  - injection Fo as <-. apply one_text in C. subst. exists (Some 1%Z). split; [|apply eval_one]. exists a, d, b, 1%Z. split; auto. split; auto. split; [now left|]. split; auto. apply V_one.
  - apply get_in in Fo. destruct (scalar_sound_all f d None s o t T Fo (SC d o Id Fo) C m) as (p & subs & ns & R & SV & EV).
    exists (Some (m p ns)). split; auto. exists a, d, b, (m p ns). split; auto. split; auto. split; [right; apply in_keys; eauto|]. split; auto. eapply V_var; eauto.
Qed.
Lemma dimension_sound f ds explicit subst dim t : (forall d, In d ds -> tidy_loop d) -> (forall d ps s o, In d ds -> pieces dim ps -> In s ps -> In (s, o) d -> scalar o) ->
  dimension (call_string f) ds explicit subst dim = Ok (Some t) -> forall m, exists x, dim2_val ds explicit subst m dim x /\ sub_text m t x.
Proof.
  intros TL SC H m. unfold dimension in H. cbv zeta in H. destruct (explicit || (length (split_on ":" dim) =? 1)) eqn:G; cbn [negb] in H.
  - apply add_given in G. apply b_inv in H as (r & M & H).
    assert (K : (exists t', r = Some t' /\ subst = true /\ first_match (call_string f) ds dim = Ok (Some t')) \/ (r = None /\ (subst = true -> forall d names, In d ds -> ~ cut d dim names))).
    { destruct subst; [|apply Ok_eq in M; subst; right; split; auto; discriminate]. destruct r as [t'|]; [left; eauto|]. right. split; auto. intros _. exact (first_match_inv f dim ds None M). }
    destruct K as [(t' & -> & -> & M')|[-> NC]].
    + apply Ok_eq in H. injection H as ->. apply first_match_inv in M'. destruct M' as (a & d & b & names & ts & E & N & -> & LD & F).
      assert (Id : In d ds) by (rewrite E; apply in_elt). destruct (cut_sound f d dim names ts (TL d Id) LD F) as [C X]. destruct (X m) as (x & V & Q).
      exists x. split; auto. eapply D2_cut; eauto.
    + apply b_inv in H as (ts & Mt & H). apply Ok_eq in H. destruct (all_some ts) as [l|] eqn:AS; [|discriminate]. cbn in H. injection H as <-.
      apply all_some_inv in AS. subst ts. apply map_res_inv in Mt. apply F2_map_r in Mt. assert (P : pieces dim (split_on ":" dim)) by now apply pieces_split.
      destruct (F2_choose _ (first_val ds m) (part_text m) _ _ Mt) as (x & V & Q).
      { intros s t I C. eapply names_sound; eauto. }
      exists x. split; [eapply D2_names; eauto|]. exists l. auto.
  - apply Ok_eq in H. injection H as <-. exists [None; None]. split; [apply D2_whole; intros K; apply add_given in K; congruence|]. exists [[]; []]. split; [reflexivity|]. repeat constructor.
Qed.
Lemma named_v v o : named (OV v) -> v = o -> exists p full, refers false (OV v) p full. Proof. intros N _. now apply named_plain. Qed.
Lemma dimstring_sound f v ds explicit subst t : named (OV v) -> (forall d, In d ds -> tidy_loop d) -> bounds_ok ds v ->
  call_dimstring f v (Some ds) explicit subst = Ok t ->
  exists p dims, refers true (OV v) p dims /\ forall m, exists vals, Forall2 (dim2_val ds explicit subst m) dims vals /\ denotes m (L ",") (p ++ t) p vals.
Proof.
  intros N TL BO H. unfold call_dimstring in H. apply b_inv in H as ([n full] & P & H). cbn [snd] in H.
  assert (R : refers true (OV v) n full) by exact (refers_sound true (OV v) N n full P). exists n, full. split; auto. intros m.
  apply b_inv in H as (ts & Mt & H). destruct (all_some ts) as [l|] eqn:AS; [|discriminate]. apply Ok_eq in H. apply all_some_inv in AS. subst ts.
  apply map_res_inv in Mt. apply F2_map_r in Mt. assert (PA := refers_path _ _ _ _ R).
  destruct (F2_choose _ (dim2_val ds explicit subst m) (sub_text m) _ _ Mt) as (vals & V & Q).
  { intros a b I C. eapply dimension_sound; eauto. intros d ps s o Id Pp Is Io. eapply (BO d s o Id); eauto. exists true, n, full, a, ps. auto. }
  exists vals. split; auto. split; auto. destruct l as [|x l].
  - left. inversion Q; subst. cbn. split; auto. now rewrite app_nil_r.
  - right. split; [intros ->; inversion Q|]. exists (x :: l). split; auto. subst t. reflexivity.
Qed.

(* completeness *)
Lemma fuel_split {A} (l : list A) (Q : nat -> A -> Prop) : (forall a, In a l -> exists n0, forall f, n0 <= f -> Q f a) -> exists n0, forall f, n0 <= f -> forall a, In a l -> Q f a.
Proof.
  induction l as [|a l IH]; intros H; [exists 0; intros f _ a []|]. destruct (H a (or_introl eq_refl)) as (n1 & H1). destruct IH as (n2 & H2); [intros; apply H; now right|].
  exists (n1 + n2). intros f LE x [<-|I]; [apply H1|apply H2; auto]; lia.
Qed.
Lemma call_of_val d m s n : NoDup (map fst d) -> s <> [] -> (s = const_one \/ In s (map fst d)) -> std_val d m s n ->
  exists n0, forall f, n0 <= f -> exists o t, find d s = Some o /\ call_string f d None o = Ok t.
Proof.
  intros ND NE K V. apply val_writable in V as (n0 & W); auto. exists n0. intros f LE. destruct (W f None LE) as (t & Ht). unfold item_text in Ht.
  destruct (str_eqb s []) eqn:Z; [apply str_eqb_eq in Z; congruence|]. destruct (find_cases d s) as [[E F]|[NC F]]; rewrite F in *; [eauto|].
  destruct K as [K|K]; [congruence|]. destruct (get s d) as [o|] eqn:G; [eauto|]. apply get_none_iff in G. contradiction.
Qed.
Lemma names_complete ds m s x : (forall d, In d ds -> NoDup (map fst d)) -> s <> [] -> first_val ds m s x ->
  exists n0, forall f, n0 <= f -> exists t, dim_name (call_string f) ds s = Ok (Some t).
Proof.
  intros ND NE (a & d & b & n & E & N & K & V & ->). assert (Id : In d ds) by (rewrite E; apply in_elt).
  destruct (str_eqb s const_one) eqn:Q.
  - apply str_eqb_eq in Q. subst s. exists 1. intros f LE. destruct f as [|f]; [lia|]. unfold dim_name. destruct ds as [|d0 ds]; [destruct a; discriminate|]. cbn. eauto.
  - apply str_eqb_neq in Q. destruct K as [K|K]; [elim (Q K)|]. destruct (call_of_val d m s n (ND d Id) NE (or_intror K) V) as (n0 & H). exists n0. intros f LE. destruct (H f LE) as (o & t & Fo & C).
    exists t. unfold dim_name. assert (W : first_with ds s = Some (d, o)).
    { subst ds. clear -N Fo Q. induction a as [|d' a IH]; cbn [app first_with]; [now rewrite Fo|]. destruct (find_cases d' s) as [[X _]|[_ ->]]; [congruence|].
      destruct (get s d') as [o'|] eqn:G; [|apply IH; intros; apply N; now right]. elim (N d' (or_introl eq_refl)). apply in_keys. exists o'. now apply get_in. }
    rewrite W. cbn. now rewrite C.
Qed.
Lemma match_complete d m dim : NoDup (map fst d) -> loop_ok d m -> exists n0, forall f, n0 <= f -> exists r, dim_match (call_string f) d dim = Ok r.
Proof.
  intros ND LO. unfold dim_match. pose proof (substs_spec dim) as S. destruct (get dim loop_dim_substs) as [sub|]; [|exists 0; eauto].
  destruct (collect_ok d m ND (split_on ":" sub)) as (n0 & H); [intros s I; eapply loop_name_facts; eauto|intros s I1 I2; eapply LO; eauto|].
  exists n0. intros f LE. destruct (H f LE) as (r & ->). cbn. eauto.
Qed.
Lemma first_match_complete m dim : forall ds, (forall d, In d ds -> NoDup (map fst d) /\ loop_ok d m) -> exists n0, forall f, n0 <= f -> exists r, first_match (call_string f) ds dim = Ok r.
Proof.
  induction ds as [|d ds IH]; intros H; [exists 0; cbn; eauto|]. destruct IH as (n1 & H1); [intros; apply H; now right|]. destruct (H d (or_introl eq_refl)) as [ND LO].
  destruct (match_complete d m dim ND LO) as (n2 & H2). exists (n1 + n2). intros f LE. cbn [first_match]. destruct (H2 f ltac:(lia)) as (r & ->). cbn [bind]. destruct r; [eauto|]. apply H1. lia.
Qed.
Lemma dimension_complete ds explicit subst m dim x : (forall d, In d ds -> NoDup (map fst d) /\ loop_ok d m) ->
  (forall ps, pieces dim ps -> given explicit dim -> ~ In [] ps) ->
  dim2_val ds explicit subst m dim x -> exists n0, forall f, n0 <= f -> exists t, dimension (call_string f) ds explicit subst dim = Ok (Some t).
Proof.
  intros LO NEM V. unfold dimension. cbv zeta. destruct (explicit || (length (split_on ":" dim) =? 1)) eqn:G; cbn [negb]; [|exists 0; eauto].
  apply add_given in G.
  assert (M : exists n0, forall f, n0 <= f -> exists r, (if subst then first_match (call_string f) ds dim else Ok None) = Ok r).
  { destruct subst; [apply (first_match_complete m); auto|exists 0; eauto]. }
  destruct M as (n1 & M). destruct V as [NG|a d b names x _ -> E N C F|ps x _ NC P F].
  - contradiction.
  - exists n1. intros f LE. destruct (M f LE) as (r & Hr). rewrite Hr. cbn [bind]. destruct r as [t|]; [eauto|]. apply first_match_inv in Hr. elim (Hr d names); auto. rewrite E. apply in_elt.
  - destruct (vals_uniform _ (fun f s => exists t, dim_name (call_string f) ds s = Ok (Some t)) _ _ F) as (n2 & H2).
    { intros s y I FV. eapply names_complete; eauto; [intros d Id; apply (LO d Id)|]. intros ->. exact (NEM ps P G I). }
    exists (n1 + n2). intros f LE. destruct (M f ltac:(lia)) as (r & Hr). rewrite Hr. cbn [bind]. destruct r as [t|]; [eauto|]. apply pieces_split in P. subst ps.
    destruct (map_res_ok (dim_name (call_string f) ds) (split_on ":" dim)) as (ts & Mt & _); [intros s I; destruct (H2 f ltac:(lia) s I); eauto|]. rewrite Mt. cbn [bind].
    destruct (all_some_ex ts) as (l & ->); [|cbn; eauto]. intros y Iy ->. apply map_res_inv in Mt. clear -Mt H2 LE Iy.
    assert (K : exists s, In s (split_on ":" dim) /\ dim_name (call_string f) ds s = Ok None).
    { revert Iy. induction Mt as [|s y l l' Hs F IH]; intros I; [destruct I|]. destruct I as [->|I]; [exists s; split; [now left|auto]|]. destruct IH as (s' & I' & H'); [|auto|exists s'; split; [now right|auto]]. intros g Lg u Iu. apply (H2 g Lg). now right. }
    destruct K as (s & I & K). destruct (H2 f ltac:(lia) s I) as (t & Q). congruence.
Qed.
Lemma dimstring_complete v ds explicit subst m p dims vals : (forall d, In d ds -> NoDup (map fst d) /\ loop_ok d m) ->
  refers true (OV v) p dims -> (forall dim ps, In dim dims -> pieces dim ps -> given explicit dim -> ~ In [] ps) ->
  Forall2 (dim2_val ds explicit subst m) dims vals ->
  exists n0, forall f, n0 <= f -> exists t, call_dimstring f v (Some ds) explicit subst = Ok t.
Proof.
  intros LO R NEM F. destruct (refers_complete _ _ _ _ R) as (n & E & P). cbn [prefix app] in E. subst n. change (parts_of true (OV v)) with (handle v) in P.
  destruct (vals_uniform _ (fun f dim => exists t, dimension (call_string f) ds explicit subst dim = Ok (Some t)) _ _ F) as (n0 & H).
  { intros a b I V. eapply dimension_complete; eauto. }
  exists n0. intros f LE. unfold call_dimstring. rewrite P. cbn [bind snd].
  destruct (map_res_ok (dimension (call_string f) ds explicit subst) dims) as (ts & Mt & _); [intros s I; destruct (H f LE s I); eauto|]. rewrite Mt. cbn [bind].
  assert (AS : exists l, ts = map Some l).
  { apply map_res_inv in Mt. specialize (H f LE). clear -Mt H. induction Mt as [|s y l l' Hs F IH]; [exists []; auto|]. destruct IH as (r & ->); [intros; apply H; now right|].
    destruct (H s (or_introl eq_refl)) as (t & Ht). rewrite Ht in Hs. apply Ok_eq in Hs. subst y. exists (t :: r). reflexivity. }
  destruct AS as (l & ->). rewrite all_some_map. eauto.
Qed.
(* errors *)
Lemma dimstring_clean v ds explicit subst : (forall d, In d ds -> acyclic d /\ forall s o, In (s, o) d -> named o) ->
  named (OV v) -> exists n0, forall f, n0 <= f -> clean (call_dimstring f v (Some ds) explicit subst).
Proof.
  intros AC N.
  assert (C1 : forall s, exists n0, forall f, n0 <= f -> clean (dim_name (call_string f) ds s)).
  { intros s. unfold dim_name. pose proof (first_with_spec ds s) as W. destruct (first_with ds s) as [[d o]|]; [|exists 0; intros; apply clean_ok]. destruct W as (a & b & E & Fo & _).
    assert (Id : In d ds) by (rewrite E; apply in_elt). destruct (find_cases d s) as [[_ Fs]|[_ Fs]]; rewrite Fs in Fo.
    - injection Fo as <-. exists 1. intros f LE. destruct f as [|f]; [lia|]. apply clean_ok.
    - apply get_in in Fo. destruct (AC d Id) as [A NM]. destruct (call_clean_none d A NM) as (rank & H). exists (rank s). intros f LE. apply clean_bind; [eapply H; eauto|]. intros; apply clean_ok. }
  assert (C2 : exists n0, forall f dim, n0 <= f -> clean (first_match (call_string f) ds dim)).
  { clear C1. induction ds as [|d l IH]; [exists 0; intros; apply clean_ok|]. destruct IH as (n1 & H1); [intros; apply AC; now right|]. destruct (AC d (or_introl eq_refl)) as [A NM].
    destruct (match_clean d A NM) as (n2 & H2). exists (n1 + n2). intros f dim LE. cbn [first_match]. apply clean_bind; [apply H2; lia|]. intros r _. destruct r; [apply clean_ok|]. apply H1. lia. }
  destruct C2 as (n2 & C2).
  destruct (handle_err v) as [([n full] & Hv)|Hv]; [|exists 0; intros; right; unfold call_dimstring; now rewrite Hv].
  destruct (fuel_split full (fun f dim => forall s, In s (split_on ":" dim) -> clean (dim_name (call_string f) ds s))) as (n3 & C3).
  { intros dim _. apply fuel_split. intros s _. apply C1. }
  exists (n2 + n3). intros f LE. unfold call_dimstring. rewrite Hv. cbn [bind snd]. apply clean_bind; [|intros; destruct (all_some a); [apply clean_ok|now right]].
  apply clean_map. intros dim Id. unfold dimension. cbv zeta. destruct (negb _); [apply clean_ok|]. apply clean_bind; [destruct subst; [apply C2; lia|apply clean_ok]|]. intros r _. destruct r; [apply clean_ok|].
  apply clean_bind; [|intros; apply clean_ok]. apply clean_map. intros s Is. apply (C3 f ltac:(lia) dim Id s Is).
Qed.
