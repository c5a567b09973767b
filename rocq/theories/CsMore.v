(* CsMore.v: completeness of call strings, errors, dimension strings. *)
From Verif Require Import PyStr Regex PhaseSpec CheckModel CheckSpec CheckProofs DictModel DictProofs HdrModel HdrProofs CsModel CsSpec CsProofs.
Open Scope nat_scope.
Open Scope list_scope.

Scheme std_val_mut := Minimality for std_val Sort Prop
  with std_vals_mut := Minimality for std_vals Sort Prop.

(* ---- what has a value can be written ---- *)
Definition writable (d : dict) (s : str) : Prop :=
  exists n0, forall f lv, n0 <= f -> exists t, item_text (call_string f) d lv s = Ok t.
Lemma writable_all d l : Forall (writable d) l ->
  exists n0, forall f lv, n0 <= f -> forall s, In s l -> exists t, item_text (call_string f) d lv s = Ok t.
Proof.
  induction 1 as [|s l (n1 & H1) F (n2 & H2)]; [exists 0; intros f lv _ s []|]. exists (n1 + n2). intros f lv LE x [<-|I]; [apply H1|apply H2; auto]; lia.
Qed.
Lemma call_ok f d lv o n full : parts_of (is_some lv) o = Ok (n, full) ->
  (forall x, In x full -> exists t, dim_text (call_string f) d lv x = Ok t) -> exists t, call_string (S f) d lv o = Ok t.
Proof.
  intros P H. rewrite call_unfold, P. cbn [bind fst snd]. destruct full as [|x full]; [eauto|].
  destruct (map_res_ok (dim_text (call_string f) d lv) (x :: full) H) as (ts & M & _). rewrite M. cbn [bind]. eauto.
Qed.
Lemma val_writable d m : NoDup (map fst d) -> forall s n, std_val d m s n -> writable d s.
Proof.
  intros ND s n H. revert s n H. apply (std_val_mut d m (fun s _ => writable d s) (fun ss _ => Forall (writable d) ss)); auto.
  - exists 1. intros f lv LE. destruct f as [|f]; [lia|]. exists (L "1"). destruct lv; reflexivity.
  - intros s n NC NI IL P. exists 0. intros f lv _. unfold item_text. destruct (str_eqb s []); [eauto|]. destruct (find_cases d s) as [[E _]|[_ ->]]; [elim (NC E)|].
    apply get_none_iff in NI. rewrite NI, P. eauto.
  - intros s o p subs ns NC I SC R V W. apply writable_all in W as (n0 & W). exists (S n0). intros f lv LE. destruct f as [|f]; [lia|]. unfold item_text.
    destruct (str_eqb s []); [eauto|]. destruct (find_cases d s) as [[E _]|[_ ->]]; [elim (NC E)|]. rewrite (in_get _ _ _ ND I).
    destruct (refers_complete _ _ _ _ R) as (n & -> & P). apply (call_ok f d lv o n subs).
    + now rewrite (scalar_parts o _ _ _ SC R).
    + intros x Ix. destruct (W f lv ltac:(lia) x Ix) as (t & Ht). exists t. apply single_back; auto. destruct SC as [_ NCol]. specialize (NCol _ _ R). rewrite Forall_forall in NCol. now apply NCol.
Qed.
Lemma vals_uniform {A B} (P : A -> B -> Prop) (Q : nat -> A -> Prop) la lb : Forall2 P la lb ->
  (forall a b, In a la -> P a b -> exists n0, forall f, n0 <= f -> Q f a) -> exists n0, forall f, n0 <= f -> forall a, In a la -> Q f a.
Proof.
  induction 1 as [|a b la lb H F IH]; intros K; [exists 0; intros f _ a []|]. destruct (K a b (or_introl eq_refl) H) as (n1 & H1).
  destruct IH as (n2 & H2); [intros x y I; apply K; now right|]. exists (n1 + n2). intros f LE x [<-|I]; [apply H1|apply H2; auto]; lia.
Qed.
Definition loop_ok (l : dict) (m : memory) : Prop :=
  forall dim names s, In (dim, names) loop_dims -> In s names -> In s (map fst l) -> exists n, std_val l m s n.
Lemma in_keys {A} s (l : list (str * A)) : In s (map fst l) <-> exists o, In (s, o) l.
Proof. rewrite in_map_iff. split; [intros ([k o] & <- & I); eauto|intros (o & I); exists (s, o); auto]. Qed.
Lemma collect_ok l m : NoDup (map fst l) -> forall names, (forall s, In s names -> s <> const_one /\ s <> []) ->
  (forall s, In s names -> In s (map fst l) -> exists n, std_val l m s n) ->
  exists n0, forall f, n0 <= f -> exists r, collect (call_string f) l names = Ok r.
Proof.
  intros ND. induction names as [|s names IH]; intros NF V; [exists 0; intros; cbn; eauto|].
  destruct IH as (n1 & H1); [intros; apply NF; now right|intros; apply V; auto; now right|]. destruct (NF s (or_introl eq_refl)) as [NC NE].
  destruct (get s l) as [o|] eqn:G.
  - destruct (V s (or_introl eq_refl)) as (n & SV); [apply in_keys; exists o; now apply get_in|]. apply val_writable in SV as (n2 & H2); auto. exists (n1 + n2). intros f LE.
    cbn [collect]. destruct (find_cases l s) as [[E _]|[_ E]]; [congruence|]. destruct (H2 f None ltac:(lia)) as (t & Ht). unfold item_text in Ht.
    destruct (str_eqb s []) eqn:Z; [apply str_eqb_eq in Z; congruence|]. rewrite E, G in *. rewrite Ht. destruct (H1 f ltac:(lia)) as (r & ->). cbn. eauto.
  - exists n1. intros f LE. cbn [collect]. destruct (find_cases l s) as [[E _]|[_ E]]; [congruence|]. rewrite E, G. eauto.
Qed.
Lemma dim_complete (d : dict) (lv : option dict) m : tidy d -> (match lv with Some l => NoDup (map fst l) /\ loop_ok l m | None => True end) ->
  forall dim x, dim_val d lv m dim x -> exists n0, forall f, n0 <= f -> exists t, dim_text (call_string f) d lv dim = Ok t.
Proof.
  intros T LO dim x V.
  assert (M : exists n0, forall f, n0 <= f -> exists r, (match lv with Some (e :: l) => dim_match (call_string f) (e :: l) dim | _ => Ok None end) = Ok r /\
    (r = None -> forall l names, lv = Some l -> ~ cut l dim names)).
  { destruct lv as [[|e l]|].
    - exists 0. intros f _. exists None. split; auto. intros _ l names [= <-] [LD C]. destruct LD as [H1|[H1|[H1|[]]]]; apply pair_equal_spec in H1 as [<- <-]; eapply C; now left.
    - destruct LO as [ND LO]. unfold dim_match. pose proof (substs_spec dim) as S. destruct (get dim loop_dim_substs) as [sub|] eqn:G.
      + destruct (collect_ok (e :: l) m ND (split_on ":" sub)) as (n0 & H); [intros s I; eapply loop_name_facts; eauto|intros s I1 I2; eapply LO; eauto|].
        exists n0. intros f LE. destruct (H f LE) as (r & Hr). rewrite Hr. cbn [bind]. eexists. split; [reflexivity|]. apply collect_inv in Hr. destruct r as [ts|]; [discriminate|].
        intros _ l' names [= <-]. destruct Hr as (s & I & Fs). eapply not_cut; eauto.
      + exists 0. intros f _. exists None. split; auto. intros _ l' names _ [LD _]. now apply S in LD.
    - exists 0. intros f _. exists None. split; auto. intros _ l names [=]. }
  destruct M as (n0 & M). destruct V as [l names x LV C F|ps x NCU P F].
  - exists n0. intros f LE. destruct (M f LE) as (r & Hr & Hn). unfold dim_text. rewrite Hr. cbn [bind]. destruct r as [t|]; [eauto|]. elim (Hn eq_refl l names LV C).
  - assert (Q : exists n1, forall f, n1 <= f -> forall s, In s ps -> exists t, item_text (call_string f) d lv s = Ok t).
    { eapply (vals_uniform _ (fun f s => exists t, item_text (call_string f) d lv s = Ok t)); [exact F|]. intros s y I PV. destruct y as [n|]; cbn in PV.
      - destruct PV as [NE SV]. apply val_writable in SV as (n1 & H1); [|apply (t_keys _ T)]. exists n1. intros f LE. now apply H1.
      - subst s. exists 0. intros f _. cbn. eauto. }
    destruct Q as (n1 & Q). exists (n0 + n1). intros f LE. destruct (M f ltac:(lia)) as (r & Hr & Hn). unfold dim_text. rewrite Hr. cbn [bind]. destruct r as [t|]; [eauto|].
    apply pieces_split in P. subst ps. destruct (map_res_ok (item_text (call_string f) d lv) (split_on ":" dim) (Q f ltac:(lia))) as (ts & -> & _). cbn. eauto.
Qed.
Lemma call_complete (d : dict) (lv : option dict) m s o p dims vals : tidy d -> (match lv with Some l => NoDup (map fst l) /\ loop_ok l m | None => True end) ->
  In (s, o) d -> refers (is_some lv) o p dims -> Forall2 (dim_val d lv m) dims vals ->
  exists n0, forall f, n0 <= f -> exists t, call_string f d lv o = Ok t.
Proof.
  intros T LO I R F. destruct (refers_complete _ _ _ _ R) as (n & -> & P).
  destruct (vals_uniform _ (fun f x => exists t, dim_text (call_string f) d lv x = Ok t) _ _ F) as (n0 & H).
  { intros a b Ia V. eapply dim_complete; eauto. }
  exists (S n0). intros f LE. destruct f as [|f]; [lia|]. eapply call_ok; eauto. apply H. lia.
Qed.

(* ---- errors ---- *)
Definition clean {A} (r : res A) : Prop := (exists a, r = Ok a) \/ r = Raise "CCPPError".
Lemma clean_ok {A} (a : A) : clean (Ok a). Proof. left. eauto. Qed.
Lemma clean_bind {A B} (r : res A) (k : A -> res B) : clean r -> (forall a, r = Ok a -> clean (k a)) -> clean (x <- r ;; k x).
Proof. intros [(a & ->)| ->] H; cbn; [apply H; auto|now right]. Qed.
Lemma clean_map {A B} (g : A -> res B) l : (forall a, In a l -> clean (g a)) -> clean (map_res g l).
Proof.
  induction l as [|a l IH]; intros H; cbn [map_res]; [apply clean_ok|]. apply clean_bind; [apply H; now left|]. intros b _. apply clean_bind; [apply IH; intros; apply H; now right|]. intros; apply clean_ok.
Qed.
Section Clean.
  Variables (d : dict) (lv : option dict) (rank : str -> nat) (K : nat).
  Hypothesis NM : forall s o, In (s, o) d -> named o.
  Hypothesis RK : forall s o s' o', In (s, o) d -> mentions o s' -> In (s', o') d -> rank s' < rank s.
  Hypothesis LM : forall f dim, K <= f -> clean (match lv with Some (e :: l) => dim_match (call_string f) (e :: l) dim | _ => Ok None end).
  Lemma call_clean : forall f s o, In (s, o) d -> rank s + K + 2 <= f -> clean (call_string f d lv o).
  Proof.
    induction f as [|f IH]; intros s o I LE; [lia|]. rewrite call_unfold. apply clean_bind.
    - unfold parts_of. destruct (is_some lv); [apply handle_err|apply clean_ok].
    - intros [n full] P. cbn [fst snd]. assert (R := refers_sound _ _ (NM _ _ I) _ _ P). destruct full as [|x full]; [apply clean_ok|].
      apply clean_bind; [|intros; apply clean_ok]. apply clean_map. intros dim Id. unfold dim_text. apply clean_bind; [apply LM; lia|]. intros r _. destruct r; [apply clean_ok|].
      apply clean_bind; [|intros; apply clean_ok]. apply clean_map. intros s' Is. unfold item_text. destruct (str_eqb s' []); [apply clean_ok|].
      destruct (find_cases d s') as [[E ->]|[NC ->]].
      + destruct f as [|f]; [lia|]. destruct lv; apply clean_ok.
      + destruct (get s' d) as [o'|] eqn:G.
        * apply get_in in G. apply (IH s'); auto. assert (X : rank s' < rank s). { eapply RK; eauto. exists (is_some lv), (prefix o ++ n), (x :: full), dim, (split_on ":" dim). split; auto. split; auto. split; [now apply pieces_split|auto]. } lia.
        * destruct (py_int s'); [apply clean_ok|now right].
  Qed.
End Clean.
Lemma call_clean_none d : acyclic d -> (forall s o, In (s, o) d -> named o) -> exists rank, forall f s o, In (s, o) d -> rank s <= f -> clean (call_string f d None o).
Proof.
  intros (rank & RK) NM. exists (fun s => rank s + 0 + 2). intros f s o I LE. eapply (call_clean d None rank 0); eauto. intros; apply clean_ok.
Qed.
Lemma collect_clean l : acyclic l -> (forall s o, In (s, o) l -> named o) -> forall names, (forall s, In s names -> s <> const_one) ->
  exists n0, forall f, n0 <= f -> clean (collect (call_string f) l names).
Proof.
  intros AC NM. destruct (call_clean_none l AC NM) as (rank & H). induction names as [|s names IH]; intros NC; [exists 0; intros; apply clean_ok|].
  destruct IH as (n1 & H1); [intros; apply NC; now right|]. exists (rank s + n1). intros f LE. cbn [collect]. destruct (find_cases l s) as [[E _]|[_ ->]]; [elim (NC s (or_introl eq_refl) E)|].
  destruct (get s l) as [o|] eqn:G; [|apply clean_ok]. apply get_in in G. apply clean_bind; [apply (H f s); auto; lia|]. intros t _. apply clean_bind; [apply H1; lia|]. intros; apply clean_ok.
Qed.
Lemma match_clean l : acyclic l -> (forall s o, In (s, o) l -> named o) -> exists n0, forall f dim, n0 <= f -> clean (dim_match (call_string f) l dim).
Proof.
  intros AC NM.
  assert (X : forall ll : list (str * list str), incl ll loop_dims -> exists n0, forall f dim names, n0 <= f -> In (dim, names) ll -> clean (collect (call_string f) l names)).
  { induction ll as [|[dim names] ll IH]; intros IN; [exists 0; intros f dim names _ []|]. destruct IH as (n1 & H1); [intros x Ix; apply IN; now right|].
    destruct (collect_clean l AC NM names) as (n2 & H2); [intros s I; eapply (loop_name_facts dim names s); eauto; apply IN; now left|].
    exists (n1 + n2). intros f dim' names' LE [E|I]; [apply pair_equal_spec in E as [<- <-]; apply H2; lia|eapply H1; eauto; lia]. }
  destruct (X loop_dims (incl_refl _)) as (n0 & H). exists n0. intros f dim LE. unfold dim_match. pose proof (substs_spec dim) as S. destruct (get dim loop_dim_substs) as [sub|]; [|apply clean_ok].
  apply clean_bind; [eapply H; eauto|]. intros; apply clean_ok.
Qed.
Lemma call_clean_all (d : dict) (lv : option dict) s o : acyclic d -> (forall s o, In (s, o) d -> named o) ->
  (match lv with Some l => acyclic l /\ forall s o, In (s, o) l -> named o | None => True end) -> In (s, o) d ->
  exists n0, forall f, n0 <= f -> clean (call_string f d lv o).
Proof.
  intros (rank & RK) NM LC I.
  assert (X : exists K, forall f dim, K <= f -> clean (match lv with Some (e :: l) => dim_match (call_string f) (e :: l) dim | _ => Ok None end)).
  { destruct lv as [[|e l]|]; [exists 0; intros; apply clean_ok| |exists 0; intros; apply clean_ok]. destruct LC as [AC NM']. destruct (match_clean _ AC NM') as (n0 & H). exists n0. intros; now apply H. }
  destruct X as (K & LM). exists (rank s + K + 2). intros f LE. eapply (call_clean d lv rank K); eauto.
Qed.
