From Verif Require Import Regex PhaseModel PhaseSpec PhaseProofs CheckModel CheckSpec CheckProofs.
Open Scope nat_scope.
Open Scope list_scope.

Definition no_blank (s : str) : Prop := forall c, In c s -> is_space c = false.

(* ---- integers ---- *)
Lemma digits_val_some s : ~ In "_"%char s -> forall acc, is_some (digits_val acc s) = true <-> all_digit s.
Proof.
  induction s as [|c t IH]; intros N acc; cbn [digits_val]; [split; auto; intros _ c []|].
  destruct (is_digit c) eqn:D.
  - rewrite IH by (intros K; apply N; now right). split.
    + intros H d [<-|X]; auto.
    + intros H d X. apply H. now right.
  - replace (Ascii.eqb c "_") with false by (symmetry; apply Ascii.eqb_neq; intros ->; apply N; now left).
    cbn. split; [discriminate|]. intros H. rewrite (H c) in D by now left. discriminate.
Qed.
Lemma unsigned_some s : ~ In "_"%char s -> is_some (unsigned_val s) = true <-> s <> [] /\ all_digit s.
Proof.
  intros N. unfold unsigned_val. destruct s as [|c t]; [split; [discriminate|intros [K _]; congruence]|].
  destruct (is_digit c) eqn:D.
  - rewrite digits_val_some by auto. split; [intros H; split; [discriminate|auto]|intros [_ H]; auto].
  - split; [discriminate|]. intros [_ H]. rewrite (H c) in D by now left. discriminate.
Qed.
Lemma is_some_map {A B} (f : A -> B) o : is_some (option_map f o) = is_some o. Proof. destruct o; auto. Qed.
Lemma py_int_some s : no_blank s -> ~ In "_"%char s -> is_some (py_int s) = true <-> int_literal s.
Proof.
  intros B N. unfold py_int. rewrite strip_inner by exact B.
  assert (X : forall t, ~ In "_"%char t -> (is_some (unsigned_val t) = true <-> t <> [] /\ all_digit t)) by apply unsigned_some.
  assert (IL : int_literal s <-> exists g d, s = g ++ d /\ sign g /\ d <> [] /\ all_digit d) by reflexivity.
  destruct s as [|c t].
  - split; [discriminate|]. intros (g & d & E & _ & D & _). symmetry in E. apply app_eq_nil in E as [_ ->]. congruence.
  - assert (NT : ~ In "_"%char t) by (intros K; apply N; now right).
    destruct (Ascii.eqb c "-") eqn:E1; [|destruct (Ascii.eqb c "+") eqn:E2].
    + apply Ascii.eqb_eq in E1. subst c. rewrite is_some_map, X by auto. split.
      * intros [H1 H2]. exists (L "-"), t. unfold sign. auto.
      * intros (g & d & E & S & D1 & D2). destruct S as [-> | [-> | ->]]; cbn in E.
        -- subst d. exfalso. specialize (D2 _ (or_introl eq_refl)). vm_compute in D2. discriminate.
        -- discriminate.
        -- injection E as ->. auto.
    + apply Ascii.eqb_eq in E2. subst c. rewrite X by auto. split.
      * intros [H1 H2]. exists (L "+"), t. unfold sign. auto.
      * intros (g & d & E & S & D1 & D2). destruct S as [-> | [-> | ->]]; cbn in E.
        -- subst d. exfalso. specialize (D2 _ (or_introl eq_refl)). vm_compute in D2. discriminate.
        -- injection E as ->. auto.
        -- discriminate.
    + rewrite X by auto. split.
      * intros [H1 H2]. exists [], (c :: t). unfold sign. auto.
      * intros (g & d & E & S & D1 & D2). destruct S as [-> | [-> | ->]]; cbn in E.
        -- subst d. auto.
        -- injection E as -> _. discriminate.
        -- injection E as -> _. discriminate.
Qed.

(* ---- reals ---- *)
Lemma digit_facts c : is_digit c = true -> c <> "."%char /\ c <> "_"%char /\ c <> ","%char /\ c <> "-"%char /\ is_space c = false.
Proof.
  intros H. split; [intros ->; discriminate|]. split; [intros ->; discriminate|]. split; [intros ->; discriminate|]. split; [intros ->; discriminate|].
  revert H. destruct c as [[] [] [] [] [] [] [] []]; vm_compute; congruence.
Qed.
Lemma sign_spec s : in_re sign_re s <-> sign s.
Proof. unfold sign_re, sign. rewrite in_opt, in_alt, !in_ch. cbn. tauto. Qed.
Lemma exp_spec s : in_re exp_re s <-> exponent s.
Proof.
  unfold exp_re, exponent. rewrite in_opt, in_cat. split.
  - intros [(x & y & -> & A & B)| ->]; [|auto]. right. apply in_cls in A as (c & -> & A). apply Ascii.eqb_eq in A.
    apply in_cat in B as (g & d & -> & G & D). apply sign_spec in G. apply plus_digit in D as [D1 D2]. exists c, g, d. auto.
  - intros [-> |(c & g & d & -> & A & G & D1 & D2)]; [auto|]. left. exists [c], (g ++ d). split; auto. split.
    + constructor. now apply Ascii.eqb_eq.
    + apply in_cat. exists g, d. split; auto. split; [now apply sign_spec|now apply plus_digit].
Qed.
Lemma sign_no_dot g : sign g -> ~ In "."%char g.
Proof. intros [-> | [-> | ->]] H; cbn in H; [auto|destruct H as [H|[]]; discriminate|destruct H as [H|[]]; discriminate]. Qed.
Lemma digits_no_dot d : all_digit d -> ~ In "."%char d.
Proof. intros D H. apply D in H. discriminate. Qed.
Lemma exp_no_dot x : exponent x -> ~ In "."%char x.
Proof.
  intros [-> |(c & g & d & -> & C & G & _ & D)] H; [destruct H|]. destruct H as [-> |H]; [vm_compute in C; discriminate|].
  apply in_app_iff in H as [H|H]; [now apply sign_no_dot in H|now apply digits_no_dot in H].
Qed.
Lemma lower_no_dot s w : lower s = w -> existsb (Ascii.eqb ".") w = false -> ~ In "."%char s.
Proof.
  intros E F H. assert (existsb (Ascii.eqb ".") w = true); [|congruence]. apply existsb_exists. exists "."%char. split; [|reflexivity].
  rewrite <- E. unfold lower. apply in_map_iff. exists "."%char. auto.
Qed.
Lemma float_spec s : In "."%char s -> in_re float_re s <-> real_literal s.
Proof.
  intros DOT. unfold float_re, real_literal. split.
  - intros H. apply in_cat in H as (g & s1 & -> & G & H). apply sign_spec in G.
    apply in_app_iff in DOT as [DOT|DOT]; [now apply sign_no_dot in DOT|].
    apply in_alt in H as [H|H].
    + apply in_cat in H as (m & x & -> & M & X). apply exp_spec in X.
      apply in_app_iff in DOT as [DOT|DOT]; [|now apply exp_no_dot in DOT].
      apply in_alt in M as [M|M].
      * apply in_cat in M as (i & m2 & -> & I & M). apply plus_digit in I as [I1 I2].
        apply in_opt in M as [M|M].
        -- apply in_cat in M as (o & f & -> & O & F). apply in_ch in O. subst o. apply star_digit in F.
           exists g, i, f, x. rewrite <- !app_assoc. tauto.
        -- subst m2. rewrite app_nil_r in DOT. now apply digits_no_dot in DOT.
      * apply in_cat in M as (o & f & -> & O & F). apply in_ch in O. subst o. apply plus_digit in F as [F1 F2].
        exists g, [], f, x. rewrite <- !app_assoc. cbn [app]. split; auto. split; auto. split; [intros c []|]. tauto.
    + exfalso. rewrite !in_alt, !in_wordi in H. destruct H as [H|[H|H]]; (eapply lower_no_dot; [exact H|reflexivity|exact DOT]).
  - intros (g & i & f & x & -> & G & I & F & NE & X). apply in_cat. exists g. eexists. split; [reflexivity|]. split; [now apply sign_spec|].
    apply in_alt. left. apply in_cat. exists (i ++ L "." ++ f), x. split; [now rewrite <- !app_assoc|]. split; [|now apply exp_spec].
    apply in_alt. destruct i as [|c i].
    + right. apply in_cat. exists (L "."), f. split; auto. split; [now apply in_ch|]. apply plus_digit. split; auto. destruct NE; congruence.
    + left. apply in_cat. exists (c :: i), (L "." ++ f). split; auto. split; [apply plus_digit; split; [discriminate|auto]|].
      apply in_opt. left. apply in_cat. exists (L "."), f. split; auto. split; [now apply in_ch|now apply star_digit].
Qed.
Lemma dot_in s : existsb (Ascii.eqb ".") s = true <-> In "."%char s.
Proof. rewrite existsb_exists. split; [intros (x & H & E); apply Ascii.eqb_eq in E; now subst|]. intros H. exists "."%char. auto. Qed.
Lemma real_has_dot s : real_literal s -> In "."%char s.
Proof. intros (g & i & f & x & -> & _). rewrite !in_app_iff. right. right. left. now left. Qed.
Lemma real_test s : no_blank s -> (existsb (Ascii.eqb ".") s && py_float_ok s = true <-> real_literal s).
Proof.
  intros B. unfold py_float_ok. rewrite strip_inner by exact B. rewrite andb_true_iff, dot_in, re_full_spec. split.
  - intros [D F]. now apply float_spec.
  - intros R. pose proof (real_has_dot _ R) as D. split; auto. now apply float_spec.
Qed.

(* ---- logicals ---- *)
Lemma up_low c d : In d (L ".TRUEFALS") -> (upper_c c = d <-> lower_c c = lower_c d).
Proof.
  intros H. cbn in H. repeat (destruct H as [<-|H]; [clear; destruct c as [[] [] [] [] [] [] [] []]; vm_compute; split; intros H; first [reflexivity|discriminate H]|]). destruct H.
Qed.
Lemma up_low_str s w : (forall d, In d w -> In d (L ".TRUEFALS")) -> (upper s = w <-> lower s = lower w).
Proof.
  revert s. induction w as [|d w IH]; intros [|c s] H; cbn; try (split; congruence).
  assert (A : upper_c c = d <-> lower_c c = lower_c d) by (apply up_low; apply H; now left).
  assert (B : upper s = w <-> lower s = lower w) by (apply IH; intros x X; apply H; now right).
  split; intros E; injection E as E1 E2; f_equal; try (now apply A); now apply B.
Qed.
Lemma sub_chars w : forallb (fun x => existsb (Ascii.eqb x) (L ".TRUEFALS")) w = true -> forall d, In d w -> In d (L ".TRUEFALS").
Proof. rewrite forallb_forall. intros F d D. apply F in D. apply existsb_exists in D as (x & X & E). apply Ascii.eqb_eq in E. now subst. Qed.
Lemma logical_test s : str_eqb (upper s) (L ".TRUE.") || str_eqb (upper s) (L ".FALSE.") = true <-> logical_literal s.
Proof.
  rewrite orb_true_iff, !str_eqb_eq. unfold logical_literal.
  rewrite (up_low_str s (L ".TRUE.")) by (apply sub_chars; reflexivity). rewrite (up_low_str s (L ".FALSE.")) by (apply sub_chars; reflexivity). reflexivity.
Qed.

(* ---- kinds ---- *)
Definition val_of (s : str) : str := hd [] (split_on "_" s).
Definition kind_of (s : str) : str := join (L "_") (tl (split_on "_" s)).
Lemma split_cases s : (~ In "_"%char s /\ val_of s = s /\ kind_of s = []) \/
  exists v r, s = v ++ "_"%char :: r /\ ~ In "_"%char v /\ val_of s = v /\ kind_of s = r.
Proof.
  unfold val_of, kind_of. destruct (in_dec ascii_dec "_"%char s) as [I|N].
  - right. assert (X : exists v r, s = v ++ "_"%char :: r /\ ~ In "_"%char v).
    { clear -I. induction s as [|c s IH]; [destruct I|]. destruct (ascii_dec c "_"%char) as [-> |NE].
      - exists [], s. auto.
      - destruct I as [-> |I]; [congruence|]. destruct (IH I) as (v & r & -> & N). exists (c :: v), r. split; auto. intros [K|K]; congruence. }
    destruct X as (v & r & -> & N). exists v, r. rewrite split_app by auto. cbn [hd tl]. split; auto. split; auto. split; auto. apply join_split.
  - left. rewrite split_none by auto. auto.
Qed.
Lemma kinded (test : str -> bool) (lit : str -> Prop) value kind :
  (forall v, no_blank v -> ~ In "_"%char v -> (test v = true <-> lit v)) ->
  (forall v, lit v -> ~ In "_"%char v) ->
  no_blank value -> lower kind = kind -> (kind = [] -> ~ In "_"%char value) ->
  (str_eqb (kind_of value) (lower kind) && test (val_of value) = true <-> of_kind lit kind value).
Proof.
  intros T NU B LK KE. rewrite LK, andb_true_iff, str_eqb_eq. unfold of_kind.
  destruct (split_cases value) as [(N & -> & ->)|(v & r & -> & N & -> & ->)].
  - rewrite T by auto. split.
    + intros [<- H]. auto.
    + intros [[-> H]|(K & v & E & H)]; auto. exfalso. apply N. rewrite E. apply in_app_iff. right. now left.
  - assert (BV : no_blank v) by (intros c C; apply B; apply in_app_iff; now left).
    rewrite T by auto. split.
    + intros [-> H]. right. split; [|eauto]. intros ->. apply KE; auto. apply in_app_iff. right. now left.
    + intros [[-> H]|(K & v' & E & H)].
      * exfalso. apply KE; auto. apply in_app_iff. right. now left.
      * pose proof (NU _ H) as N'. cbn [L list_ascii_of_string app] in E.
        assert (Q : val_of (v ++ "_"%char :: r) = val_of (v' ++ "_"%char :: kind)) by now rewrite E.
        assert (Q2 : kind_of (v ++ "_"%char :: r) = kind_of (v' ++ "_"%char :: kind)) by now rewrite E.
        unfold val_of, kind_of in Q, Q2. rewrite !split_app in Q, Q2 by auto. cbn [hd tl] in Q, Q2. pose proof (join_split "_" r) as J1. pose proof (join_split "_" kind) as J2. change (L "_") with ["_"%char] in Q2. rewrite J1, J2 in Q2. subst. auto.
Qed.
Lemma int_no_under v : int_literal v -> ~ In "_"%char v.
Proof.
  intros (g & d & -> & G & _ & D) H. apply in_app_iff in H as [H|H].
  - destruct G as [-> | [-> | ->]]; cbn in H; [auto|destruct H as [H|[]]; discriminate|destruct H as [H|[]]; discriminate].
  - apply D in H. discriminate.
Qed.
Lemma real_no_under v : real_literal v -> ~ In "_"%char v.
Proof.
  intros (g & i & f & x & -> & G & I & F & _ & X) H. rewrite !in_app_iff in H. destruct H as [H|[H|[H|[H|H]]]].
  - destruct G as [-> | [-> | ->]]; cbn in H; [auto|destruct H as [H|[]]; discriminate|destruct H as [H|[]]; discriminate].
  - apply I in H. discriminate.
  - destruct H as [H|[]]. discriminate.
  - apply F in H. discriminate.
  - destruct X as [-> |(c & g' & d & -> & C & G' & _ & D)]; [destruct H|]. destruct H as [-> |H]; [vm_compute in C; discriminate|].
    apply in_app_iff in H as [H|H]; [|apply D in H; discriminate].
    destruct G' as [-> | [-> | ->]]; cbn in H; [auto|destruct H as [H|[]]; discriminate|destruct H as [H|[]]; discriminate].
Qed.
Lemma logical_no_under v : logical_literal v -> ~ In "_"%char v.
Proof.
  intros [E|E] H; assert (Q : In (lower_c "_"%char) (lower v)) by (now apply in_map); rewrite E in Q; vm_compute in Q; intuition discriminate.
Qed.

Lemma simple_other value vtype kind : no_blank value -> vtype <> L "character" ->
  simple_literal value vtype kind =
  if negb (str_eqb (kind_of value) (lower kind)) then Ok false
  else if str_eqb vtype (L "integer") then Ok (is_some (py_int (val_of value)))
  else if str_eqb vtype (L "real") then Ok (existsb (Ascii.eqb ".") (val_of value) && py_float_ok (val_of value))
  else if str_eqb vtype (L "logical") then Ok (str_eqb (upper (val_of value)) (L ".TRUE.") || str_eqb (upper (val_of value)) (L ".FALSE."))
  else Raise "ParseInternalError: not a Fortran intrinsic type".
Proof.
  intros B NC. unfold simple_literal. cbv zeta. rewrite (strip_inner value B). apply str_eqb_neq in NC. rewrite NC. fold (val_of value). fold (kind_of value). reflexivity.
Qed.
Lemma int_simple value kind : no_blank value -> lower kind = kind -> (kind = [] -> ~ In "_"%char value) ->
  exists b, simple_literal value (L "integer") kind = Ok b /\ (b = true <-> of_kind int_literal kind value).
Proof.
  intros B LK KE. rewrite simple_other by (auto; discriminate).
  pose proof (kinded (fun v => is_some (py_int v)) int_literal value kind py_int_some int_no_under B LK KE) as K.
  destruct (str_eqb (kind_of value) (lower kind)); cbn [negb andb] in *; change (str_eqb (L "integer") (L "integer")) with true; cbn iota; eauto.
Qed.
Lemma real_simple value kind : no_blank value -> lower kind = kind -> (kind = [] -> ~ In "_"%char value) ->
  exists b, simple_literal value (L "real") kind = Ok b /\ (b = true <-> of_kind real_literal kind value).
Proof.
  intros B LK KE. rewrite simple_other by (auto; discriminate).
  pose proof (kinded (fun v => existsb (Ascii.eqb ".") v && py_float_ok v) real_literal value kind (fun v NB _ => real_test v NB) real_no_under B LK KE) as K.
  destruct (str_eqb (kind_of value) (lower kind)); cbn [negb andb] in *; change (str_eqb (L "real") (L "integer")) with false; change (str_eqb (L "real") (L "real")) with true; cbn iota; eauto.
Qed.
Lemma logical_simple value kind : no_blank value -> lower kind = kind -> (kind = [] -> ~ In "_"%char value) ->
  exists b, simple_literal value (L "logical") kind = Ok b /\ (b = true <-> of_kind logical_literal kind value).
Proof.
  intros B LK KE. rewrite simple_other by (auto; discriminate).
  pose proof (kinded (fun v => str_eqb (upper v) (L ".TRUE.") || str_eqb (upper v) (L ".FALSE.")) logical_literal value kind (fun v _ _ => logical_test v) logical_no_under B LK KE) as K.
  destruct (str_eqb (kind_of value) (lower kind)); cbn [negb andb] in *; change (str_eqb (L "logical") (L "integer")) with false; change (str_eqb (L "logical") (L "real")) with false; change (str_eqb (L "logical") (L "logical")) with true; cbn iota; eauto.
Qed.

(* ---- characters ---- *)
Section Quotes.
Variable q : ascii.
Definition qtest (s : str) : bool := Nat.odd (length (split_on q s)) && even_empty (split_on q s).
Inductive outside : str -> Prop := OEnd : outside [] | OOpen a u : ~ In q a -> outside u -> outside (q :: a ++ q :: u).
Lemma first_q t : In q t -> exists a u, t = a ++ q :: u /\ ~ In q a.
Proof.
  induction t as [|c t IH]; [intros []|]. intros I. destruct (ascii_dec c q) as [-> |NE]; [exists [], t; auto|].
  destruct I as [-> |I]; [congruence|]. destruct (IH I) as (a & u & -> & N). exists (c :: a), u. split; auto. intros [K|K]; congruence.
Qed.
Lemma qtest_spec n : forall s, length s <= n -> qtest s = true <-> outside s.
Proof.
  induction n as [|n IH]; intros s LN.
  - destruct s; [|cbn in LN; lia]. split; [constructor|reflexivity].
  - destruct s as [|c t]; [split; [constructor|reflexivity]|]. destruct (ascii_dec c q) as [-> |NE].
    + destruct (in_dec ascii_dec q t) as [I|N].
      * destruct (first_q t I) as (a & u & -> & N). unfold qtest. cbn [split_on]. rewrite Ascii.eqb_refl, split_app by auto.
        change (Nat.odd (length ([] :: a :: split_on q u)) && even_empty ([] :: a :: split_on q u)) with (Nat.odd (length (split_on q u)) && even_empty (split_on q u)).
        fold (qtest u). cbn in LN. rewrite app_length in LN. cbn in LN. rewrite IH by lia. split; [now constructor|].
        intros O. inversion O as [|a' u' N' O' E]. subst.
        assert (X : a' = a /\ u' = u).
        { assert (S : split_on q (a' ++ q :: u') = split_on q (a ++ q :: u)) by congruence. rewrite !split_app in S by auto. injection S as -> S.
          split; auto. rewrite <- (join_split q u'), S, join_split. reflexivity. }
        destruct X as [-> ->]. exact O'.
      * unfold qtest. cbn [split_on]. rewrite Ascii.eqb_refl, split_none by auto. cbn. split; [discriminate|].
        intros O. inversion O as [|a' u' N' O' E]. subst. exfalso. apply N. apply in_app_iff. right. now left.
    + split; [|intros O; inversion O; congruence]. unfold qtest. cbn [split_on].
      replace (Ascii.eqb c q) with false by (symmetry; now apply Ascii.eqb_neq).
      destruct (split_on q t) as [|h r] eqn:Q; [now apply split_on_nonempty in Q|]. cbn [even_empty is_nil]. destruct r; cbn; rewrite ?andb_false_r; discriminate.
Qed.
Lemma outside_quoted s : outside s -> s = [] \/ exists b, s = q :: b ++ [q] /\ quoted_body q b.
Proof.
  induction 1 as [|a u N O IH]; auto. right.
  assert (QA : forall b, quoted_body q b -> quoted_body q (a ++ b)).
  { intros b B. clear O IH. induction a as [|c a IH]; auto. cbn. constructor; [intros ->; apply N; now left|]. apply IH. intros K. apply N. now right. }
  destruct IH as [-> |(b & -> & B)].
  - exists a. split; auto. rewrite <- (app_nil_r a). apply QA. constructor.
  - exists (a ++ q :: q :: b). rewrite <- app_assoc. cbn [app]. split; auto. apply QA. now constructor.
Qed.
Lemma quoted_outside b : quoted_body q b -> forall a, ~ In q a -> outside (q :: a ++ b ++ [q]).
Proof.
  induction 1 as [|c t NE B IH|t B IH]; intros a N.
  - cbn [app]. apply OOpen; auto. constructor.
  - replace (a ++ (c :: t) ++ [q]) with ((a ++ [c]) ++ t ++ [q]) by (now rewrite <- app_assoc). apply IH.
    rewrite in_app_iff. intros [K|[K|[]]]; auto.
  - cbn [app]. apply OOpen; auto. apply (IH []). auto.
Qed.
End Quotes.
Lemma char_simple value : ~ In "_"%char value -> strip value = value ->
  match value with
  | [] => exists x, simple_literal value (L "character") [] = Raise x
  | q :: _ => exists b, simple_literal value (L "character") [] = Ok b /\ (b = true <-> exists body, value = q :: body ++ [q] /\ quoted_body q body)
  end.
Proof.
  intros N S. unfold simple_literal. cbv zeta. rewrite S. rewrite str_eqb_refl. rewrite split_none by auto. cbn [length Nat.ltb Nat.leb hd].
  change (str_eqb [] (lower [])) with true. cbn [negb].
  change (str_eqb (L "character") (L "integer")) with false. change (str_eqb (L "character") (L "real")) with false. change (str_eqb (L "character") (L "logical")) with false. cbn iota.
  destruct value as [|q t]; [eauto|]. exists (qtest q (q :: t)). split; [reflexivity|]. rewrite (qtest_spec q (length (q :: t))) by auto. split.
  - intros O. apply outside_quoted in O as [O|O]; [discriminate|auto].
  - intros (b & E & B). rewrite E. apply (quoted_outside q b B []). auto.
Qed.
