(* The debug checks of generated caps: C146, C147, C148. *)
From Coq Require Import List Ascii String ZArith Bool Lia Arith.
From Verif Require Import PyStr CheckProofs CompatModel ParModel ParProofs DbgModel DbgSpec.
Import ListNotations.
Open Scope nat_scope. Open Scope list_scope.

Lemma is_horizontal_iff d : In ":"%char d -> (is_horizontal d = true <-> horizontal d).
Proof.
  intros C. unfold is_horizontal, horizontal. rewrite existsb_exists. split.
  - intros (x & I & E). apply str_eqb_eq in E. subst x. cbn [horizontal_dims map In] in I.
    destruct I as [<-|[<-|[<-|[<-|[<-|[]]]]]]; auto; exfalso; cbn in C; intuition discriminate.
  - intros [->|[->| ->]]; eexists; (split; [|apply str_eqb_refl]); cbn; auto.
Qed.
Lemma horizontal_colon d : horizontal d -> In ":"%char d.
Proof. intros [->|[->| ->]]; cbn; auto 30. Qed.
(* the local names have the values of the standard names *)
Definition consistent (m : rt) (val : str -> Z) (ds : list (str -> option str)) : Prop :=
  forall d n l, In d ds -> d n = Some l -> r_int m l = val n.
Lemma dlook_val m val ds n l : consistent m val ds -> dlook ds n = Ok l -> r_int m l = val n.
Proof.
  intros C. assert (G : forall ds', (forall d, In d ds' -> In d ds) -> dlook ds' n = Ok l -> r_int m l = val n).
  { induction ds' as [|d ds' IH]; cbn [dlook]; intros I E; [discriminate|]. destruct (d n) as [x|] eqn:D; [injection E as ->; eapply C; eauto; apply I; now left|].
    apply IH; auto. intros; apply I; now right. }
  apply G. auto.
Qed.
(* one dimension *)
Lemma sel_declares m val ds run ext incl d s lo hi : consistent m val ds -> sound val -> declares val run d lo hi -> dim_sel ds run ext incl d = Ok s ->
  (factor m s = hi - lo + 1)%Z /\
  (incl = true -> exists u l f t, s = DAll u l f t /\ bound_val m f = lo /\ bound_val m t = hi) /\
  (incl = false -> horizontal d -> exists u l, s = DSection u l) /\
  (incl = false -> ~ horizontal d -> exists u l f t, s = DAll u l f t /\ bound_val m f = lo /\ bound_val m t = hi).
Proof.
  intros C [S1 S2] D E. unfold dim_sel in E.
  assert (CC : has_char ":"%char d = true) by (apply has_char_in; inversion D; subst; [now apply horizontal_colon|apply in_or_app; right; now left]).
  rewrite CC in E. cbn [negb] in E. pose proof (proj1 (has_char_in _ _) CC) as IC. inversion D as [d' H|a b NA NB NH]; subst.
  - apply is_horizontal_iff in H as H'; auto. rewrite H' in E. unfold horiz in E. cbv zeta in E. apply bind_ok in E as (l & El & E). apply bind_ok in E as (u & Eu & E).
    pose proof (dlook_val _ _ _ _ _ C El) as Vl. pose proof (dlook_val _ _ _ _ _ C Eu) as Vu. clear El Eu.
    assert (X : (r_int m u - r_int m l + 1 = columns val run)%Z).
    { rewrite Vl, Vu. unfold columns. destruct run; [destruct (incl && ext)%bool|]; cbn [fst snd]; lia. }
    injection E as <-. destruct incl; cbn [factor].
    + split; [lia|]. split; [|split; congruence]. intros _. exists u, l, BOne, (BExtent u l). cbn. auto.
    + split; [lia|]. split; [congruence|]. split; [eauto|tauto].
  - destruct (is_horizontal (a ++ ":"%char :: b)) eqn:H'; [apply is_horizontal_iff in H'; tauto|].
    assert (SP : split_on ":"%char (a ++ ":"%char :: b) = [a; b]).
    { rewrite split_app; auto. f_equal. now apply split_none. }
    rewrite SP in E. apply bind_ok in E as (l & El & E). apply bind_ok in E as (u & Eu & E). injection E as <-.
    pose proof (dlook_val _ _ _ _ _ C El) as Vl. pose proof (dlook_val _ _ _ _ _ C Eu) as Vu. cbn [factor]. rewrite Vl, Vu. split; [reflexivity|].
    assert (Q : exists u0 l0 f t, DAll u l (BName l) (BName u) = DAll u0 l0 f t /\ bound_val m f = val a /\ bound_val m t = val b) by (exists u, l, (BName l), (BName u); auto).
    split; auto. split; [tauto|auto].
Qed.
Lemma sels_F2 ds run ext incl dims : forall ss, dim_sels ds run ext incl dims = Ok ss -> Forall2 (fun d s => dim_sel ds run ext incl d = Ok s) dims ss.
Proof.
  induction dims as [|d dims IH]; cbn [dim_sels]; intros ss E; [injection E as <-; constructor|]. apply bind_ok in E as (x & E1 & E). apply bind_ok in E as (l & E2 & [= <-]).
  constructor; auto.
Qed.
(* the check made for an array *)
Lemma array_check ds run ext out cond v c : d_dims v <> [] -> write_check ds run ext out cond v = Ok (Some c) ->
  dim_sels ds run ext (d_incall v) (d_dims v) = Ok (c_sels c) /\ c_name c = d_local v /\ c_reads c = negb out /\
  c_cond c = (if str_eqb cond (L ".true.") then None else Some cond).
Proof.
  unfold write_check. intros N E. destruct (out && d_alloc v)%bool; [discriminate|]. cbv zeta in E. destruct (d_dims v) as [|x xs]; [congruence|].
  apply bind_ok in E as (ss & E1 & [= <-]). cbn. auto.
Qed.
Definition is_on (m : rt) (cond : str) : Prop := cond = L ".true." \/ r_on m cond = true.
Lemma run_on m c cond : is_on m cond -> c_cond c = (if str_eqb cond (L ".true.") then None else Some cond) -> c_sels c <> [] ->
  run_check m c = if (zprod (sizes m (c_sels c) (r_shape m (c_name c))) =? zprod (map (factor m) (c_sels c)))%Z
              then Some (if c_reads c then [(c_name c, map (first_sub m) (c_sels c)); (c_name c, map (last_sub m) (c_sels c))] else []) else None.
Proof.
  intros O C N. unfold run_check. rewrite C. destruct (str_eqb cond (L ".true.")) eqn:E.
  - destruct (c_sels c); [congruence|reflexivity].
  - destruct O as [->|O]; [now rewrite str_eqb_refl in E|]. rewrite O. destruct (c_sels c); [congruence|reflexivity].
Qed.
Lemma zprod_total l : zprod l = total l.
Proof. unfold total. induction l; cbn; congruence. Qed.
(* the declared bounds of the dimensions *)
Definition declared (val : str -> Z) (run : bool) (dims : list str) (ex : list (Z * Z)) : Prop := Forall2 (fun d e => declares val run d (fst e) (snd e)) dims ex.
Lemma sels_values m val ds run ext dims ex ss bs : consistent m val ds -> sound val -> declared val run dims ex ->
  Forall2 (fun d s => dim_sel ds run ext true d = Ok s) dims ss -> length bs = length dims ->
  map (factor m) ss = map (fun e => snd e - fst e + 1)%Z ex /\ sizes m ss bs = map length_of bs /\
  map (first_sub m) ss = map fst ex /\ map (last_sub m) ss = map snd ex.
Proof.
  intros C S D. revert ss bs. induction D as [|d e dims ex De D IH]; intros ss bs F LB; inversion F as [|d' s dims' ss' Es F']; subst.
  - destruct bs; [auto|discriminate].
  - destruct bs as [|b bs]; [discriminate|]. cbn in LB. destruct (IH ss' bs F' ltac:(lia)) as (A1 & A2 & A3 & A4).
    destruct (sel_declares _ _ _ _ _ _ _ _ _ _ C S De Es) as (Q1 & Q2 & _). destruct (Q2 eq_refl) as (u & l & f & t & -> & Qf & Qt).
    cbn [map sizes sel_size first_sub last_sub]. rewrite A1, A2, A3, A4, Q1, Qf, Qt. auto.
Qed.

(* ---------------------------------------------------------------- C147 *)
(* For every array argument of a cap with declared dimensions: the check fails
   exactly when the total size differs from the declared one. *)
Theorem C147_total_size_partial : forall ds run ext out cond v c m val ex,
  d_dims v <> [] -> d_incall v = true -> write_check ds run ext out cond v = Ok (Some c) ->
  consistent m val ds -> sound val -> declared val run (d_dims v) ex -> is_on m cond ->
  length (r_shape m (d_local v)) = length (d_dims v) ->
  (run_check m c = None <-> total (map length_of (r_shape m (d_local v))) <> total (map (fun e => snd e - fst e + 1)%Z ex)).
Proof.
  intros ds run ext out cond v c m val ex N I E C S D O LB. apply array_check in E as (E & EN & ER & EC); auto. rewrite I in E. apply sels_F2 in E.
  destruct (sels_values _ _ _ _ _ _ _ _ _ C S D E LB) as (A1 & A2 & A3 & A4).
  assert (NS : c_sels c <> []) by (intros X; rewrite X in E; inversion E; congruence).
  rewrite (run_on m c cond O EC NS), EN, A1, A2, !zprod_total. match goal with |- context [(?a =? ?b)%Z] => destruct (Z.eqb_spec a b) as [X|X] end.
  - split; [intros W; discriminate W|intros W; now contradiction W].
  - split; auto.
Qed.
Print Assumptions C147_total_size_partial.
(* a vector: any other length is reported *)
Theorem C147_vector : forall ds run ext out cond v c m val d lo hi b,
  d_dims v = [d] -> d_incall v = true -> write_check ds run ext out cond v = Ok (Some c) ->
  consistent m val ds -> sound val -> declares val run d lo hi -> is_on m cond -> r_shape m (d_local v) = [b] ->
  (run_check m c = None <-> length_of b <> (hi - lo + 1)%Z).
Proof.
  intros ds run ext out cond v c m val d lo hi b ED I E C S D O SH.
  assert (X := C147_total_size_partial ds run ext out cond v c m val [(lo, hi)]). rewrite ED, SH in X. cbn [map total fold_right fst snd length] in X.
  rewrite !Z.mul_1_r in X. apply X; auto; try discriminate. constructor; [exact D|constructor].
Qed.
Print Assumptions C147_vector.
(* Refuted: a wrong shape with the right total is not reported, e.g. the dimensions
   in another order. *)
Theorem C147_transposed_refuted : forall ds run ext out cond v c m val ex b1 b2,
  d_incall v = true -> write_check ds run ext out cond v = Ok (Some c) ->
  consistent m val ds -> sound val -> declared val run (d_dims v) ex -> is_on m cond ->
  ex = [b1; b2] -> r_shape m (d_local v) = [(1, length_of b2)%Z; (1, length_of b1)%Z] ->
  (fst b1 <= snd b1 + 1)%Z -> (fst b2 <= snd b2 + 1)%Z -> run_check m c <> None.
Proof.
  intros ds run ext out cond v c m val ex b1 b2 I E C S D O -> SH L1 L2 X. 
  assert (LD : length (d_dims v) = 2) by (inversion D as [|? ? ? ? _ D1]; inversion D1 as [|? ? ? ? _ D2]; inversion D2; reflexivity).
  apply (C147_total_size_partial ds run ext out cond v c m val [b1; b2]) in X; auto; [|destruct (d_dims v); discriminate|rewrite SH, LD; reflexivity].
  rewrite SH in X. cbn in X. apply X. unfold length_of. cbn [fst snd]. rewrite !Z.max_r by lia. ring.
Qed.
Print Assumptions C147_transposed_refuted.
(* Refuted for variables of the suite or the group (not arguments of the cap): the
   size compared is that of the section asked for, whatever the size of the array. *)
Theorem C147_suite_variable_refuted : forall ds run ext out cond v c m val d,
  d_dims v = [d] -> horizontal d -> d_incall v = false -> write_check ds run ext out cond v = Ok (Some c) ->
  consistent m val ds -> sound val -> (0 <= columns val run)%Z -> is_on m cond -> length (r_shape m (d_local v)) = 1 ->
  run_check m c <> None.
Proof.
  intros ds run ext out cond v c m val d ED H I E C S CN O LB. apply array_check in E as (E & EN & ER & EC); [|rewrite ED; discriminate].
  rewrite I, ED in E. apply sels_F2 in E. destruct (c_sels c) as [|s ss] eqn:CS; [inversion E|].
  assert (Es : dim_sel ds run ext false d = Ok s /\ ss = []) by (inversion E as [|? ? ? ? Es F]; inversion F; auto). destruct Es as [Es ->].
  destruct (sel_declares _ _ _ _ _ _ _ _ _ _ C S (decl_horizontal val run d H) Es) as (Q1 & _ & Q3 & _). destruct (Q3 eq_refl H) as (u & l & ->).
  assert (NS : c_sels c <> []) by congruence. rewrite (run_on m c cond O EC NS), EN, CS. destruct (r_shape m (d_local v)) as [|b [|? ?]]; try discriminate.
  cbn [sizes zprod map sel_size factor]. cbn [factor] in Q1. unfold extent. cbn [fst snd]. rewrite Z.max_r by lia. rewrite Z.eqb_refl. destruct (c_reads c); discriminate.
Qed.
Print Assumptions C147_suite_variable_refuted.

(* ---------------------------------------------------------------- C146 *)
(* An array of the declared shape is never reported; when its dimensions start where
   they are declared to start and none is empty, only elements inside it are read. *)
Theorem C146_right_shape_partial : forall ds run ext out cond v c m val ex,
  d_dims v <> [] -> d_incall v = true -> write_check ds run ext out cond v = Ok (Some c) ->
  consistent m val ds -> sound val -> declared val run (d_dims v) ex -> is_on m cond ->
  Forall2 (fun e b => length_of b = snd e - fst e + 1)%Z ex (r_shape m (d_local v)) ->
  exists acc, run_check m c = Some acc /\
    (Forall2 (fun e b => fst b = fst e /\ fst e <= snd e)%Z ex (r_shape m (d_local v)) ->
     forall a x, In (a, x) acc -> a = d_local v /\ inside (r_shape m (d_local v)) x).
Proof.
  intros ds run ext out cond v c m val ex N I E C S D O SH.
  assert (LB : length (r_shape m (d_local v)) = length (d_dims v)).
  { assert (F2L : forall A B (R : A -> B -> Prop) l l', Forall2 R l l' -> length l = length l') by (induction 1; cbn; congruence).
    rewrite <- (F2L _ _ _ _ _ SH). symmetry. apply (F2L _ _ _ _ _ D). }
  pose proof E as E'. apply array_check in E as (E & EN & ER & EC); auto. rewrite I in E. apply sels_F2 in E.
  destruct (sels_values _ _ _ _ _ _ _ _ _ C S D E LB) as (A1 & A2 & A3 & A4).
  assert (NS : c_sels c <> []) by (intros X; rewrite X in E; inversion E; congruence).
  rewrite (run_on m c cond O EC NS), EN, A1, A2, A3, A4, !zprod_total.
  assert (T : map length_of (r_shape m (d_local v)) = map (fun e => (snd e - fst e + 1)%Z) ex).
  { clear - SH. induction SH; cbn; [auto|]. now rewrite H, IHSH. }
  rewrite T, Z.eqb_refl. eexists. split; [reflexivity|]. intros F a x Ix.
  assert (IN : inside (r_shape m (d_local v)) (map fst ex) /\ inside (r_shape m (d_local v)) (map snd ex)).
  { clear - SH F. unfold inside. induction SH as [|e b ex bs HL SH IH]; inversion F as [|? ? ? ? [Q1 Q2] F']; subst; cbn [map]; [split; constructor|].
    destruct (IH F') as [X Y]. unfold length_of in HL. split; constructor; auto; lia. }
  destruct (c_reads c); [|destruct Ix]. destruct Ix as [[= <- <-]|[[= <- <-]|[]]]; tauto.
Qed.
Print Assumptions C146_right_shape_partial.
(* Refuted when a dimension is declared not to start at 1: the argument of the cap is
   an assumed-shape array and starts at 1, so an element outside it is read.  *)
Theorem C146_lower_bound_refuted : forall ds run ext cond v c m val d lo hi n,
  d_dims v = [d] -> d_incall v = true -> write_check ds run ext false cond v = Ok (Some c) ->
  consistent m val ds -> sound val -> declares val run d lo hi -> is_on m cond ->
  r_shape m (d_local v) = [(1, n)%Z] -> Z.max 0 n = (hi - lo + 1)%Z -> lo <> 1%Z ->
  exists acc x, run_check m c = Some acc /\ In (d_local v, x) acc /\ ~ inside (r_shape m (d_local v)) x.
Proof.
  intros ds run ext cond v c m val d lo hi n ED I E C S D O SH HN NL.
  assert (D' : declared val run (d_dims v) [(lo, hi)]) by (rewrite ED; constructor; [exact D|constructor]).
  pose proof E as E'. apply array_check in E as (E & EN & ER & EC); [|rewrite ED; discriminate]. rewrite I in E. apply sels_F2 in E.
  destruct (sels_values _ _ _ _ _ _ _ _ (r_shape m (d_local v)) C S D' E) as (A1 & A2 & A3 & A4); [now rewrite SH, ED|].
  assert (NS : c_sels c <> []) by (intros X; rewrite X, ED in E; inversion E).
  rewrite (run_on m c cond O EC NS), EN, A1, A2, A3, A4, !zprod_total, ER, SH. cbn [map total fold_right negb fst snd]. unfold length_of. cbn [fst snd].
  replace (n - 1 + 1)%Z with n by lia. rewrite HN, Z.eqb_refl.
  assert (K : (lo < 1 \/ n < hi)%Z) by lia. eexists. destruct K as [K|K].
  - exists [lo]. split; [reflexivity|]. split; [now left|]. intros X. inversion X; subst. cbn in *. lia.
  - exists [hi]. split; [reflexivity|]. split; [right; now left|]. intros X. inversion X; subst. cbn in *. lia.
Qed.
Print Assumptions C146_lower_bound_refuted.
(* Refuted when a dimension is empty: elements of the empty array are read. *)
Theorem C146_empty_refuted : forall ds run ext cond v c m val d lo hi b,
  d_dims v = [d] -> d_incall v = true -> write_check ds run ext false cond v = Ok (Some c) ->
  consistent m val ds -> sound val -> declares val run d lo hi -> is_on m cond ->
  r_shape m (d_local v) = [b] -> length_of b = 0%Z -> (hi = lo - 1)%Z ->
  exists acc x, run_check m c = Some acc /\ In (d_local v, x) acc /\ ~ inside (r_shape m (d_local v)) x.
Proof.
  intros ds run ext cond v c m val d lo hi b ED I E C S D O SH HB HL.
  assert (D' : declared val run (d_dims v) [(lo, hi)]) by (rewrite ED; constructor; [exact D|constructor]).
  pose proof E as E'. apply array_check in E as (E & EN & ER & EC); [|rewrite ED; discriminate]. rewrite I in E. apply sels_F2 in E.
  destruct (sels_values _ _ _ _ _ _ _ _ (r_shape m (d_local v)) C S D' E) as (A1 & A2 & A3 & A4); [now rewrite SH, ED|].
  assert (NS : c_sels c <> []) by (intros X; rewrite X, ED in E; inversion E).
  rewrite (run_on m c cond O EC NS), EN, A1, A2, A3, A4, !zprod_total, ER, SH. cbn [map total fold_right negb fst snd]. rewrite HB.
  replace (hi - lo + 1)%Z with 0%Z by lia. rewrite Z.eqb_refl. eexists. exists [lo]. split; [reflexivity|]. split; [now left|]. unfold length_of in HB.
  intros X. inversion X; subst. cbn in *. lia.
Qed.
Print Assumptions C146_empty_refuted.

(* ---------------------------------------------------------------- C148 *)
(* A variable that the host has switched off is neither read nor measured; an
   intent(out) variable is never read; one that the scheme allocates is not
   measured. *)
Theorem C148_not_touched : forall ds run ext out cond v oc m, write_check ds run ext out cond v = Ok oc ->
  (out = true -> d_alloc v = true -> oc = None) /\
  (forall c, oc = Some c -> cond <> L ".true." -> r_on m cond = false -> run_check m c = Some []) /\
  (forall c acc, oc = Some c -> out = true -> run_check m c = Some acc -> acc = []).
Proof.
  intros ds run ext out cond v oc m E. split; [|split].
  - intros -> A. unfold write_check in E. rewrite A in E. cbn in E. congruence.
  - intros c -> NC OFF. assert (CC : c_cond c = Some cond).
    { apply str_eqb_neq in NC. unfold write_check in E. destruct (out && d_alloc v)%bool; [discriminate|]. cbv zeta in E. rewrite NC in E. destruct (d_dims v) as [|x xs].
      - destruct out; [discriminate|]. injection E as <-. reflexivity.
      - apply bind_ok in E as (ss & E1 & [= <-]). reflexivity. }
    unfold run_check. now rewrite CC, OFF.
  - intros c acc -> -> R. assert (CR : c_reads c = false).
    { unfold write_check in E. destruct (d_alloc v); [discriminate|]. cbn [andb] in E. cbv zeta in E. destruct (d_dims v) as [|x xs]; [discriminate|].
      apply bind_ok in E as (ss & E1 & [= <-]). reflexivity. }
    unfold run_check in R. rewrite CR in R.
    destruct (c_cond c) as [t|]; [destruct (r_on m t); [|now injection R as <-]|]; destruct (c_sels c) as [|x l]; try (now injection R as <-);
      destruct (zprod (sizes m (x :: l) (r_shape m (c_name c))) =? zprod (map (factor m) (x :: l)))%Z; try discriminate R; now injection R as <-.
Qed.
Print Assumptions C148_not_touched.
(* Everything else is checked: a check is written for every array whose names are
   known, unless the scheme allocates it. *)
Theorem C148_checked : forall ds run ext out cond v, d_dims v <> [] -> (out = true -> d_alloc v = false) ->
  (forall n, In n (map L ["ccpp_constant_one"; "horizontal_loop_extent"; "horizontal_loop_begin"; "horizontal_loop_end"; "horizontal_dimension"]%string) \/
     (exists d, In d (d_dims v) /\ In n (split_on ":"%char d)) -> exists l, dlook ds n = Ok l) -> Forall (fun d => exists a, d = a /\ ~ In ":"%char a \/ exists b, d = a ++ ":"%char :: b /\ ~ In ":"%char a /\ ~ In ":"%char b) (d_dims v) ->
  exists c, write_check ds run ext out cond v = Ok (Some c) /\ c_name c = d_local v /\ length (c_sels c) = length (d_dims v).
Proof.
  intros ds run ext out cond v N OA DK F. unfold write_check.
  assert (X : (out && d_alloc v)%bool = false) by (destruct out; auto; cbn; auto). rewrite X. cbv zeta.
  assert (Q : exists ss, dim_sels ds run ext (d_incall v) (d_dims v) = Ok ss /\ length ss = length (d_dims v)).
  { clear - DK F. induction F as [|d dims Hd F IH]; [exists []; auto|]. destruct IH as (ss & Es & Ls).
    { intros n [In1|(d' & Id & In1)]; apply DK; [now left|right; exists d'; split; [now right|auto]]. }
    cbn [dim_sels]. assert (DD : forall n, In n (split_on ":"%char d) -> exists l, dlook ds n = Ok l) by (intros n In1; apply DK; right; exists d; split; [now left|auto]).
    assert (Y : exists s, dim_sel ds run ext (d_incall v) d = Ok s).
    { unfold dim_sel. destruct (has_char ":"%char d) eqn:HC; cbn [negb].
      - destruct (is_horizontal d).
        + unfold horiz. cbv zeta. destruct run; [destruct (d_incall v && ext)%bool|]; cbn [fst snd]; match goal with |- context [(l <- dlook ds ?a ;; (u <- dlook ds ?b ;; _))] => destruct (DK a) as [l ->]; [left; cbn; tauto|]; destruct (DK b) as [u ->]; [left; cbn; tauto|] end; cbn; eauto.
        + destruct Hd as (a & [[-> NA]|(b & -> & NA & NB)]); [apply has_char_in in HC; contradiction|].
          assert (SP : split_on ":"%char (a ++ ":"%char :: b) = [a; b]) by (rewrite split_app by auto; rewrite split_none by auto; reflexivity).
          rewrite SP in *. destruct (DD a) as [l ->]; [now left|]. destruct (DD b) as [u ->]; [right; now left|]. cbn. eauto.
      - destruct (DD d) as [l ->]; [|cbn; eauto]. apply has_char_out in HC. rewrite split_none by auto. now left. }
    destruct Y as [s ->]. rewrite Es. cbn. eexists. split; [reflexivity|]. cbn. congruence. }
  destruct Q as (ss & Es & Ls). destruct (d_dims v) as [|x xs] eqn:ED; [congruence|]. rewrite Es. cbn. eexists. split; [reflexivity|]. auto.
Qed.
Print Assumptions C148_checked.
(* The scheme is called only when no check of the list fails; otherwise nothing
   changes and the error code is 1; with an error before, nothing happens. *)
Theorem C148_no_call_after_error : forall A m e cs (call : A -> A * Z) s,
  (e <> 0%Z -> run_scheme m e cs call s = (s, e)) /\
  (e = 0%Z -> (exists c, In c cs /\ run_check m c = None) -> run_scheme m e cs call s = (s, 1%Z)) /\
  (e = 0%Z -> (forall c, In c cs -> run_check m c <> None) -> run_scheme m e cs call s = call s).
Proof.
  intros A m e cs call s. unfold run_scheme. split; [|split].
  - intros N. apply Z.eqb_neq in N. now rewrite N.
  - intros -> (c & I & R). cbn. assert (X : run_checks m cs = None).
    { induction cs as [|x cs IH]; [destruct I|]. cbn [run_checks]. destruct I as [->|I]; [now rewrite R|]. destruct (run_check m x); auto. now rewrite IH. }
    now rewrite X.
  - intros -> H. cbn. assert (X : run_checks m cs <> None).
    { induction cs as [|x cs IH]; cbn [run_checks]; [discriminate|]. pose proof (H x (or_introl eq_refl)). destruct (run_check m x); [|congruence].
      assert (Y : run_checks m cs <> None) by (apply IH; intros; apply H; now right). destruct (run_checks m cs); congruence. }
    destruct (run_checks m cs); congruence.
Qed.
Print Assumptions C148_no_call_after_error.
(* L1311-L1318 *)
Theorem C148_recorded : forall v, recorded v = true <->
  lower (d_active v) <> L ".false." /\ d_std v <> L "ccpp_error_code" /\ d_std v <> L "ccpp_error_message".
Proof.
  intros v. unfold recorded. rewrite negb_true_iff, !orb_false_iff, !str_eqb_neq. tauto.
Qed.
Print Assumptions C148_recorded.

(* a two-dimensional temperature with ten columns and five levels in the run phase *)
Definition ex_val (n : str) : Z :=
  if str_eqb n (L "horizontal_loop_begin") then 11 else if str_eqb n (L "horizontal_loop_end") then 20
  else if str_eqb n (L "horizontal_loop_extent") then 10 else if str_eqb n (L "vertical_layer_dimension") then 5
  else if str_eqb n (L "zero") then 0 else if str_eqb n (L "vertical_interface_dimension") then 6 else 1.
Definition ex_var (dims : list str) : dvar := mkDV (L "air_temperature") (L "temp") dims (L ".true.") false true.
Definition ex_rt (shape : list (Z * Z)) : rt := mkRT ex_val (fun _ => true) (fun _ => shape).
Definition ex_dims : list str := [L "ccpp_constant_one:horizontal_loop_extent"; L "ccpp_constant_one:vertical_layer_dimension"].
Definition ex_ds : list (str -> option str) := [fun n => Some n].
Lemma ex_consistent shape : consistent (ex_rt shape) ex_val ex_ds.
Proof. intros d n l [<-|[]] [= <-]. reflexivity. Qed.
Lemma ex_sound : sound ex_val.
Proof. split; reflexivity. Qed.
Lemma ex_declared : declared ex_val true ex_dims [(1, 10); (1, 5)]%Z.
Proof.
  constructor; [apply (decl_horizontal ex_val true); unfold horizontal; auto|]. constructor; [|constructor].
  apply (decl_range ex_val true (L "ccpp_constant_one") (L "vertical_layer_dimension")); try (cbn; intuition discriminate).
  intros [X|[X|X]]; vm_compute in X; discriminate.
Qed.
Definition ex_run (dims : list str) (shape : list (Z * Z)) : option (list access) :=
  match write_check ex_ds true true false (L ".true.") (ex_var dims) with Ok (Some c) => run_check (ex_rt shape) c | _ => None end.
Example C146_example : ex_run ex_dims [(1, 10); (1, 5)]%Z = Some [(L "temp", [1; 1]%Z); (L "temp", [10; 5]%Z)].
Proof. vm_compute. reflexivity. Qed.
Example C147_example : ex_run ex_dims [(1, 10); (1, 4)]%Z = None /\ ex_run ex_dims [(1, 5); (1, 10)]%Z <> None.
Proof. split; vm_compute; [reflexivity|discriminate]. Qed.
(* the elements 0 and 6 of an array with seven elements that starts at 1 *)
Example C146_lower_bound_example : ex_run [L "zero:vertical_interface_dimension"] [(1, 7)]%Z = Some [(L "temp", [0]%Z); (L "temp", [6]%Z)].
Proof. vm_compute. reflexivity. Qed.
Example C148_example : write_check ex_ds true true true (L ".true.") (ex_var ex_dims) <> Ok None /\ recorded (ex_var ex_dims) = true.
Proof. split; [vm_compute; discriminate|reflexivity]. Qed.
