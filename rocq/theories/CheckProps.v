(* CheckProps.v: properties C20 and C53 to C60, the string checkers of parse_checkers.py. *)
From Verif Require Import Regex PhaseModel PhaseSpec PhaseProofs PhaseProps CheckModel CheckSpec CheckProofs LitProofs.
Open Scope nat_scope.
Open Scope list_scope.

Definition short (n : nat) (s : str) : Prop := n = 0 \/ length s <= n.
Lemma long_test n s : (0 <? n) && (n <? length s) = false <-> short n s.
Proof. unfold short. rewrite andb_false_iff, !Nat.ltb_ge. unfold str in *. lia. Qed.
(* a checker accepts [s] with value [v] exactly under [P]; otherwise it raises or
   returns None as the error flag says *)
Definition checks (r : bool -> res (option str)) (P : Prop) (v : str) : Prop :=
  (P -> forall e, r e = Ok (Some v)) /\ (~ P -> (exists m, r true = Raise m) /\ r false = Ok None).

(* ---- C20: identifiers ---- *)
Lemma id_dollar s : ~ ends_nl s -> re_dollar fortran_id_re s = true <-> fortran_name s.
Proof. intros N. rewrite dollar_no_nl by auto. apply fortran_id_spec. Qed.
Theorem C20_fortran_id : forall s n, ~ ends_nl s ->
  checks (fun e => check_fortran_id s e n) (fortran_name s /\ short n s) s.
Proof.
  intros s n N. unfold checks, check_fortran_id. pose proof (id_dollar s N) as I. pose proof (long_test n s) as LT.
  destruct (re_dollar fortran_id_re s).
  - destruct ((0 <? n) && (n <? length s)).
    + split; [intros [_ H]; apply LT in H; discriminate|]. intros _. split; [eexists|]; reflexivity.
    + split; [auto|]. intros H. exfalso. apply H. split; [now apply I|now apply LT].
  - split; [intros [H _]; apply I in H; discriminate|]. intros _. split; [eexists|]; reflexivity.
Qed.
Print Assumptions C20_fortran_id.
Lemma no_nl_dec s : (existsb (Ascii.eqb nl) s = false) -> ~ ends_nl s.
Proof. intros H (t & ->). rewrite existsb_app in H. cbn in H. rewrite orb_true_r in H. discriminate. Qed.
Example C20_ex1 : ~ ends_nl (L "V_123") /\ fortran_name (L "V_123") /\ short 5 (L "V_123") /\ ~ short 4 (L "V_123") /\
  check_fortran_id (L "V_123") true 5 = Ok (Some (L "V_123")) /\ check_fortran_id (L "V_123") false 4 = Ok None /\ check_fortran_id (L "1V") false 0 = Ok None.
Proof.
  split; [now apply no_nl_dec|]. split. { exists "V"%char, (L "_123"). split; auto. split; auto. intros d D. cbn in D. repeat (destruct D as [<-|D]; [reflexivity|]). destruct D. }
  split; [right; cbn; lia|]. split; [intros [H|H]; cbn in H; lia|]. split; [reflexivity|]. split; reflexivity.
Qed.

Theorem C20_standard_name : forall s, ~ ends_nl s -> s <> [] ->
  checks (fun e => check_cf_standard_name s e) (fortran_name s) (lower s) /\ lower (lower s) = lower s.
Proof.
  intros s N NE. split; [|apply lower_idem]. unfold checks, check_cf_standard_name. pose proof (id_dollar s N) as I.
  destruct s as [|c t]; [congruence|]. destruct (re_dollar fortran_id_re (c :: t)).
  - split; auto. intros H. exfalso. apply H. now apply I.
  - split; [intros H; apply I in H; discriminate|]. intros _. split; [eexists|]; reflexivity.
Qed.
Print Assumptions C20_standard_name.
Theorem C20_blank_standard_name : forall e, exists m, check_cf_standard_name [] e = Raise m.
Proof. intros e. eexists. reflexivity. Qed.
Print Assumptions C20_blank_standard_name.
Example C20_ex2 : check_cf_standard_name (L "Air_Temperature") true = Ok (Some (L "air_temperature")) /\ check_cf_standard_name (L "air temperature") false = Ok None.
Proof. split; reflexivity. Qed.

(* without the condition on the last character the claim is false: the patterns end
   in "$", which Python also matches before a final newline *)
Theorem C20_newline_refuted : exists s, ~ fortran_name s /\ check_fortran_id s true 0 = Ok (Some s).
Proof.
  exists (L "foo" ++ [nl]). split; [|reflexivity]. intros (c & t & E & _ & W). cbn in E. injection E as <- <-.
  specialize (W nl). assert (is_word nl = true) by (apply W; cbn; auto). discriminate.
Qed.
Print Assumptions C20_newline_refuted.

(* ---- C53: literals ---- *)
Lemma lit_type_plain t w : lower t = w -> ~ In "d"%char w -> lit_type t = w.
Proof.
  intros E N. unfold lit_type. destruct (re_prefix dp_re (strip t)) eqn:P; auto. exfalso.
  apply re_prefix_spec in P as (p & q & S & H). unfold dp_re in H. apply in_cat in H as (x & y & -> & X & _). apply in_wordi in X.
  apply N. rewrite <- E. destruct x as [|c x]; [discriminate|]. cbn in X. injection X as X _.
  unfold lower. apply in_map_iff. exists c. split; auto.
  assert (I : In c (strip t)) by (rewrite S; now left). unfold strip in I.
  assert (RS : forall l, In c (rstrip l) -> In c l).
  { intros l. unfold rstrip. intros H. apply in_rev in H. rewrite in_rev. revert H. induction (rev l) as [|d r IH]; cbn; [auto|]. destruct (is_space d); auto. }
  assert (LS : forall l, In c (lstrip l) -> In c l). { intros l. unfold lstrip. induction l as [|d r IH]; cbn; [auto|]. destruct (is_space d); auto. }
  try (apply LS in I; apply RS in I; exact I); apply RS in I; apply LS in I; exact I.
Qed.
Lemma lit_as v t k w : lit_type t = w -> w <> L "complex" -> check_fortran_literal v t k = simple_literal v w k.
Proof. intros E N. unfold check_fortran_literal. cbv zeta. rewrite E. apply str_eqb_neq in N. now rewrite N. Qed.

(* [kind_given]: a value with an underscore is only judged here together with a kind *)
Definition kind_given (kind value : str) : Prop := lower kind = kind /\ (kind = [] -> ~ In "_"%char value).
Theorem C53_integer : forall value typestr kind, lower typestr = L "integer" -> no_blank value -> kind_given kind value ->
  exists b, check_fortran_literal value typestr kind = Ok b /\ (b = true <-> of_kind int_literal kind value).
Proof.
  intros v t k T B [K1 K2]. rewrite (lit_as v t k (L "integer")); [now apply int_simple| |discriminate].
  apply lit_type_plain; auto. intros H. vm_compute in H. intuition discriminate.
Qed.
Print Assumptions C53_integer.
Theorem C53_real : forall value typestr kind, lower typestr = L "real" -> no_blank value -> kind_given kind value ->
  exists b, check_fortran_literal value typestr kind = Ok b /\ (b = true <-> of_kind real_literal kind value).
Proof.
  intros v t k T B [K1 K2]. rewrite (lit_as v t k (L "real")); [now apply real_simple| |discriminate].
  apply lit_type_plain; auto. intros H. vm_compute in H. intuition discriminate.
Qed.
Print Assumptions C53_real.
Theorem C53_double_precision : forall value kind w, all_space w -> no_blank value -> kind_given kind value ->
  exists b, check_fortran_literal value (L "double" ++ w ++ L "precision") kind = Ok b /\ (b = true <-> of_kind real_literal kind value).
Proof.
  intros v k w W B [K1 K2]. rewrite (lit_as v _ k (L "real")); [now apply real_simple| |discriminate].
  unfold lit_type. replace (re_prefix dp_re (strip (L "double" ++ w ++ L "precision"))) with true; auto. symmetry. apply re_prefix_spec.
  assert (S : strip (L "double" ++ w ++ L "precision") = L "double" ++ w ++ L "precision").
  { change (L "double" ++ w ++ L "precision") with ("d"%char :: L "ouble" ++ w ++ L "precision").
    apply (strip_clean "d" _ "n" (L "double" ++ w ++ L "precisio")); auto. rewrite <- !app_assoc. reflexivity. }
  rewrite S. exists (L "double" ++ w ++ L "precision"), []. split; [now rewrite app_nil_r|]. unfold dp_re. apply in_cat.
  exists (L "double"), (w ++ L "precision"). split; auto. split; [now apply in_wordi|]. apply in_cat. exists w, (L "precision").
  split; auto. split; [now apply star_space|now apply in_wordi].
Qed.
Print Assumptions C53_double_precision.
Theorem C53_logical : forall value typestr kind, lower typestr = L "logical" -> no_blank value -> kind_given kind value ->
  exists b, check_fortran_literal value typestr kind = Ok b /\ (b = true <-> of_kind logical_literal kind value).
Proof.
  intros v t k T B [K1 K2]. rewrite (lit_as v t k (L "logical")); [now apply logical_simple| |discriminate].
  apply lit_type_plain; auto. intros H. vm_compute in H. intuition discriminate.
Qed.
Print Assumptions C53_logical.
Example C53_ex1 : no_blank (L "-1.5e+3_kp") /\ kind_given (L "kp") (L "-1.5e+3_kp") /\ of_kind real_literal (L "kp") (L "-1.5e+3_kp") /\
  check_fortran_literal (L "-1.5e+3_kp") (L "REAL") (L "kp") = Ok true /\ check_fortran_literal (L "15_kp") (L "real") (L "kp") = Ok false /\
  check_fortran_literal (L "15_kp") (L "integer") (L "kp") = Ok true /\ check_fortran_literal (L ".False.") (L "logical") [] = Ok true.
Proof.
  split. { intros c C. cbn in C. repeat (destruct C as [<-|C]; [reflexivity|]). destruct C. }
  split; [split; [reflexivity|discriminate]|]. split.
  - right. split; [discriminate|]. exists (L "-1.5e+3"). split; auto. exists (L "-"), (L "1"), (L "5"), (L "e+3"). split; [reflexivity|].
    split; [unfold sign; auto|]. split; [intros c [<-|[]]; reflexivity|]. split; [intros c [<-|[]]; reflexivity|]. split; [left; discriminate|].
    right. exists "e"%char, (L "+"), (L "3"). split; [reflexivity|]. split; [reflexivity|]. split; [unfold sign; auto|]. split; [discriminate|]. intros c [<-|[]]; reflexivity.
  - repeat split.
Qed.

(* a default value must be a literal of the variable's type and kind *)
Theorem C53_default_value : forall s vtype kind lit, no_blank s ->
  (strip (lower vtype) = L "integer" /\ lit = int_literal \/ strip (lower vtype) = L "real" /\ lit = real_literal \/
   strip (lower vtype) = L "logical" /\ lit = logical_literal) ->
  let k := match kind with Some x => strip (lower x) | None => [] end in
  kind_given k s -> checks (check_default_value s vtype kind) (of_kind lit k s) s.
Proof.
  intros s vt kind lit B T k K.
  assert (X : exists b, check_fortran_literal s (strip (lower vt)) k = Ok b /\ (b = true <-> of_kind lit k s)).
  { destruct T as [[T ->]|[[T ->]|[T ->]]]; [apply C53_integer|apply C53_real|apply C53_logical]; auto; rewrite T; reflexivity. }
  destruct X as (b & E & I). unfold check_default_value. cbv zeta. subst k. rewrite E. cbn [bind]. destruct b.
  - split; [auto|]. intros N. exfalso. apply N. now apply I.
  - split; [intros P; apply I in P; discriminate|]. intros _. split; [eexists|]; reflexivity.
Qed.
Print Assumptions C53_default_value.
Example C53_default_ex : check_default_value (L "1.5_kind_phys") (L "Real") (Some (L "kind_phys")) true = Ok (Some (L "1.5_kind_phys")) /\
  check_default_value (L "15") (L "real") None false = Ok None.
Proof. split; reflexivity. Qed.

(* complex: (a,b) with both parts real or both integer *)
Definition complex_literal (kind s : str) : Prop :=
  exists x y, s = L "(" ++ x ++ L "," ++ y ++ L ")" /\
    ((of_kind int_literal kind x /\ of_kind int_literal kind y) \/ (of_kind real_literal kind x /\ of_kind real_literal kind y)).
Lemma int_no_dot v : int_literal v -> ~ In "."%char v.
Proof. intros (g & d & -> & G & _ & D) H. apply in_app_iff in H as [H|H]; [now apply sign_no_dot in H|now apply digits_no_dot in H]. Qed.
Lemma of_kind_dot k v : ~ In "."%char k -> (of_kind int_literal k v -> ~ In "."%char v) /\ (of_kind real_literal k v -> In "."%char v).
Proof.
  intros N. split; intros [[-> H]|(K & u & -> & H)].
  - now apply int_no_dot.
  - rewrite !in_app_iff. intros [X|[X|X]]; [now apply int_no_dot in X|destruct X as [X|[]]; discriminate|auto].
  - now apply real_has_dot.
  - apply in_app_iff. left. now apply real_has_dot.
Qed.
Lemma num_chars v : int_literal v \/ real_literal v -> ~ In ","%char v.
Proof.
  assert (SG : forall g, sign g -> ~ In ","%char g) by (intros g [-> | [-> | ->]] H; cbn in H; [auto|destruct H as [H|[]]; discriminate|destruct H as [H|[]]; discriminate]).
  assert (DG : forall d, all_digit d -> ~ In ","%char d) by (intros d D H; apply D in H; discriminate).
  intros [(g & d & -> & G & _ & D)|(g & i & f & x & -> & G & I & F & _ & X)] H.
  - apply in_app_iff in H as [H|H]; [now apply SG in H|now apply DG in H].
  - rewrite !in_app_iff in H. destruct H as [H|[H|[H|[H|H]]]]; [now apply SG in H|now apply DG in H|destruct H as [H|[]]; discriminate|now apply DG in H|].
    destruct X as [-> |(c & g' & d & -> & C & G' & _ & D)]; [destruct H|]. destruct H as [-> |H]; [vm_compute in C; discriminate|].
    apply in_app_iff in H as [H|H]; [now apply SG in H|now apply DG in H].
Qed.
Lemma of_kind_comma k v : ~ In ","%char k -> of_kind int_literal k v \/ of_kind real_literal k v -> ~ In ","%char v.
Proof.
  intros N H. assert (X : of_kind (fun v => int_literal v \/ real_literal v) k v) by (destruct H as [[[-> H]|(K & u & -> & H)]|[[-> H]|(K & u & -> & H)]]; [left|right|left|right]; eauto 6).
  destruct X as [[-> X]|(K & u & -> & X)]; [now apply num_chars|]. rewrite !in_app_iff. intros [Y|[Y|Y]]; [now apply num_chars in Y|destruct Y as [Y|[]]; discriminate|auto].
Qed.
Lemma two_parts a b s : split_on "," s = [a; b] -> s = a ++ ","%char :: b.
Proof. intros H. rewrite <- (join_split "," s), H. reflexivity. Qed.
Theorem C53_complex : forall value typestr kind, lower typestr = L "complex" -> no_blank value -> kind_given kind value ->
  ~ In "."%char kind -> ~ In ","%char kind ->
  (check_fortran_literal value typestr kind = Ok true <-> complex_literal kind value).
Proof.
  intros v t k T B [K1 K2] KD KC.
  assert (TL : lit_type t = L "complex"). { apply lit_type_plain; auto. intros H. vm_compute in H. intuition discriminate. }
  unfold check_fortran_literal. cbv zeta. rewrite TL, str_eqb_refl. rewrite (strip_inner v B).
  assert (INT : forall x, no_blank x -> (k = [] -> ~ In "_"%char x) -> simple_literal x (L "integer") k = Ok true <-> of_kind int_literal k x).
  { intros x X1 X2. destruct (int_simple x k X1 K1 X2) as (b & -> & H). rewrite <- H. split; congruence. }
  assert (REA : forall x, no_blank x -> (k = [] -> ~ In "_"%char x) -> simple_literal x (L "real") k = Ok true <-> of_kind real_literal k x).
  { intros x X1 X2. destruct (real_simple x k X1 K1 X2) as (b & -> & H). rewrite <- H. split; congruence. }
  assert (IOK : forall x, no_blank x -> (k = [] -> ~ In "_"%char x) -> exists b, simple_literal x (L "integer") k = Ok b).
  { intros x X1 X2. destruct (int_simple x k X1 K1 X2) as (b & -> & _). eauto. }
  assert (ROK : forall x, no_blank x -> (k = [] -> ~ In "_"%char x) -> exists b, simple_literal x (L "real") k = Ok b).
  { intros x X1 X2. destruct (real_simple x k X1 K1 X2) as (b & -> & _). eauto. }
  split.
  - intros H. destruct (split_on "," v) as [|a [|b [|]]] eqn:SP; try discriminate. apply two_parts in SP.
    destruct a as [|p a']; [discriminate|]. destruct (Ascii.eqb p "(") eqn:P; [|discriminate]. apply Ascii.eqb_eq in P. subst p.
    destruct (rev b) as [|q rb] eqn:RB; [discriminate|]. destruct (Ascii.eqb q ")") eqn:Q; [|discriminate]. apply Ascii.eqb_eq in Q. subst q.
    assert (BE : b = rev rb ++ [")"%char]) by (rewrite <- (rev_involutive b), RB; reflexivity).
    assert (NB1 : no_blank a') by (intros c C; apply B; rewrite SP; cbn; right; apply in_app_iff; auto).
    assert (NB2 : no_blank (rev rb)) by (intros c C; apply B; rewrite SP, BE; cbn; right; rewrite in_app_iff; right; right; apply in_app_iff; auto).
    assert (NU1 : k = [] -> ~ In "_"%char a') by (intros K X; apply (K2 K); rewrite SP; cbn; right; apply in_app_iff; auto).
    assert (NU2 : k = [] -> ~ In "_"%char (rev rb)) by (intros K X; apply (K2 K); rewrite SP, BE; cbn; right; rewrite in_app_iff; right; right; apply in_app_iff; auto).
    destruct (negb (xorb (existsb (Ascii.eqb ".") ("("%char :: a')) (existsb (Ascii.eqb ".") b))); [|discriminate].
    exists a', (rev rb). split; [rewrite SP, BE; reflexivity|].
    destruct (existsb (Ascii.eqb ".") ("("%char :: a') && existsb (Ascii.eqb ".") b); apply bind_ok in H as (v1 & H1 & H2).
    + right. destruct v1; [|discriminate]. split; [now apply REA|now apply REA].
    + left. destruct v1; [|discriminate]. split; [now apply INT|now apply INT].
  - intros (x & y & E & H). subst v.
    assert (NCX : ~ In ","%char x) by (apply (of_kind_comma k); tauto). assert (NCY : ~ In ","%char y) by (apply (of_kind_comma k); tauto).
    replace (L "(" ++ x ++ L "," ++ y ++ L ")") with (("("%char :: x) ++ ","%char :: y ++ [")"%char]) in * by reflexivity.
    rewrite split_app; [|intros [C|C]; [discriminate|auto]]. rewrite split_none; [|rewrite in_app_iff; intros [C|[C|[]]]; [auto|discriminate]].
    rewrite rev_app_distr. cbn [rev app]. rewrite !Ascii.eqb_refl. rewrite rev_involutive.
    assert (NB1 : no_blank x) by (intros c C; apply B; cbn; right; apply in_app_iff; auto).
    assert (NB2 : no_blank y) by (intros c C; apply B; cbn; right; rewrite in_app_iff; right; right; apply in_app_iff; auto).
    assert (NU1 : k = [] -> ~ In "_"%char x) by (intros K X; apply (K2 K); cbn; right; apply in_app_iff; auto).
    assert (NU2 : k = [] -> ~ In "_"%char y) by (intros K X; apply (K2 K); cbn; right; rewrite in_app_iff; right; right; apply in_app_iff; auto).
    assert (DX : existsb (Ascii.eqb ".") ("("%char :: x) = existsb (Ascii.eqb ".") x) by reflexivity. rewrite DX.
    assert (DY : existsb (Ascii.eqb ".") (y ++ [")"%char]) = existsb (Ascii.eqb ".") y) by (rewrite existsb_app; cbn; apply orb_false_r). rewrite DY.
    destruct (of_kind_dot k x KD) as [X1 X2]. destruct (of_kind_dot k y KD) as [Y1 Y2]. destruct H as [[HX HY]|[HX HY]].
    + specialize (X1 HX). specialize (Y1 HY). rewrite <- dot_in in X1, Y1. apply not_true_is_false in X1. apply not_true_is_false in Y1. rewrite X1, Y1. cbn [andb xorb negb].
      apply INT in HX; auto. apply INT in HY; auto. rewrite HX. cbn [bind]. exact HY.
    + specialize (X2 HX). specialize (Y2 HY). apply dot_in in X2. apply dot_in in Y2. rewrite X2, Y2. cbn [andb xorb negb].
      apply REA in HX; auto. apply REA in HY; auto. rewrite HX. cbn [bind]. exact HY.
Qed.
Print Assumptions C53_complex.
Example C53_ex2 : check_fortran_literal (L "(1.0,-2.5)") (L "complex") [] = Ok true /\ check_fortran_literal (L "(1.0,2)") (L "complex") [] = Ok false /\
  check_fortran_literal (L "(1,2)") (L "complex") [] = Ok true.
Proof. repeat split. Qed.

(* character, without underscores or kind; any first character serves as the quote *)
Theorem C53_character_partial : forall typestr value q t, lower typestr = L "character" -> value = q :: t -> strip value = value -> ~ In "_"%char value ->
  exists b, check_fortran_literal value typestr [] = Ok b /\ (b = true <-> exists body, value = q :: body ++ [q] /\ quoted_body q body).
Proof.
  intros ty v q t T E S N. rewrite (lit_as v ty [] (L "character")); [|apply lit_type_plain; auto; intros H; vm_compute in H; intuition discriminate|discriminate].
  pose proof (char_simple v N S) as C. subst v. exact C.
Qed.
Print Assumptions C53_character_partial.
Example C53_ex3 : check_fortran_literal (L "'it''s'") (L "character") [] = Ok true /\ check_fortran_literal (L "'it's'") (L "character") [] = Ok false.
Proof. split; reflexivity. Qed.
(* valid literals refused, invalid ones accepted *)
Theorem C53_underscore_refuted : char_literal (L "'hi_mom'") /\ check_fortran_literal (L "'hi_mom'") (L "character") [] = Ok false.
Proof.
  split; [|reflexivity]. exists "'"%char, (L "hi_mom"). split; [auto|]. split; [reflexivity|].
  repeat (constructor; [discriminate|]). constructor.
Qed.
Print Assumptions C53_underscore_refuted.
Theorem C53_quote_refuted : ~ char_literal (L "xhix") /\ check_fortran_literal (L "xhix") (L "character") [] = Ok true.
Proof. split; [|reflexivity]. intros (q & b & [-> | ->] & E & _); discriminate. Qed.
Print Assumptions C53_quote_refuted.
Theorem C53_kind_refuted : ~ of_kind int_literal [] (L "12_") /\ check_fortran_literal (L "12_") (L "integer") [] = Ok true.
Proof.
  split; [|reflexivity]. intros [[_ H]|[K _]]; [|congruence]. apply int_no_under in H. apply H. cbn. auto.
Qed.
Print Assumptions C53_kind_refuted.
Theorem C53_kind_case_refuted : of_kind real_literal (L "KP") (L "1._KP") /\ check_fortran_literal (L "1._KP") (L "real") (L "KP") = Ok false.
Proof.
  split; [|reflexivity]. right. split; [discriminate|]. exists (L "1."). split; [reflexivity|]. exists [], (L "1"), [], []. split; [reflexivity|].
  split; [unfold sign; auto|]. split; [intros c [<-|[]]; reflexivity|]. split; [intros c []|]. split; [left; discriminate|]. left. reflexivity.
Qed.
Print Assumptions C53_kind_case_refuted.
Theorem C53_crash_refuted : check_fortran_literal [] (L "character") [] = Raise "IndexError" /\ check_fortran_literal (L ",") (L "complex") [] = Raise "IndexError".
Proof. split; reflexivity. Qed.
Print Assumptions C53_crash_refuted.

(* ---- C54: references ---- *)
Definition reference (n : nat) (s : str) : Prop :=
  (fortran_name s /\ short n s) \/ exists name dims, array_ref s name dims /\ Forall (short n) (name :: dims).
Lemma ref_not_name s name dims : array_ref s name dims -> ~ fortran_name s.
Proof.
  intros (_ & _ & _ & w & ps & _ & _ & ->) F. apply fname_word in F as [_ F].
  specialize (F "("%char). assert (is_word "(" = true); [|discriminate]. apply F. rewrite !in_app_iff. right. right. left. now left.
Qed.
Lemma short_tokens n l : (0 <? n) && existsb (fun t : str => n <? length t) l = false <-> Forall (short n) l.
Proof.
  rewrite Forall_forall. destruct n as [|n]; [cbn; split; auto; intros _ x _; now left|]. cbn [andb Nat.ltb Nat.leb].
  split.
  - intros H x X. right. apply Nat.nlt_ge. intros LT. assert (existsb (fun t : str => S n <? length t) l = true); [|unfold str in *; cbn in *; congruence].
    apply existsb_exists. exists x. split; auto. now apply Nat.ltb_lt.
  - intros H. apply not_true_is_false. intros X. apply existsb_exists in X as (x & I & LT). change ((S n <? length x) = true) in LT. apply Nat.ltb_lt in LT. destruct (H x I); [discriminate|]. unfold str in *. lia.
Qed.
Theorem C54_reference : forall s n, ~ ends_nl s -> checks (fun e => check_fortran_ref s e n) (reference n s) s.
Proof.
  intros s n N. destruct (C20_fortran_id s n N) as [I1 I2]. cbv beta in I1, I2.
  assert (DEC : (fortran_name s /\ short n s) \/ ~ (fortran_name s /\ short n s)).
  { rewrite <- (id_dollar s N), <- long_test. destruct (re_dollar fortran_id_re s), ((0 <? n) && (n <? length s)); intuition discriminate. }
  destruct DEC as [D|D].
  - split; [|intros H; exfalso; apply H; now left]. intros _ e. unfold check_fortran_ref. rewrite I1 by auto. reflexivity.
  - assert (SR : re_dollar scalar_ref_re s = true <-> exists name dims, array_ref s name dims) by (rewrite dollar_no_nl by auto; apply scalar_ref_spec).
    destruct (I2 D) as [_ NO]. split.
    + intros [H|(name & dims & A & F)]; [contradiction|]. intros e. unfold check_fortran_ref. rewrite NO. cbn [bind].
      replace (re_dollar scalar_ref_re s) with true by (symmetry; apply SR; eauto). rewrite (ref_tokens_spec s name dims A).
      apply short_tokens in F. rewrite F. reflexivity.
    + intros H. unfold check_fortran_ref. rewrite NO. cbn [bind]. destruct (re_dollar scalar_ref_re s).
      * destruct SR as [SR _]. destruct (SR eq_refl) as (name & dims & A). rewrite (ref_tokens_spec s name dims A).
        destruct ((0 <? n) && existsb (fun t : str => n <? length t) (name :: dims)) eqn:LT.
        -- split; [eexists|]; reflexivity.
        -- exfalso. apply H. right. exists name, dims. split; auto. now apply short_tokens.
      * split; [eexists|]; reflexivity.
Qed.
Print Assumptions C54_reference.
(* a local name that is not a constant must be a reference *)
Theorem C54_local_name : forall s vtype kind n, ~ ends_nl s -> checks (fun e => check_local_name s false vtype kind e n) (reference n s) s.
Proof. intros s vt k n N. exact (C54_reference s n N). Qed.
Print Assumptions C54_local_name.
(* the local name of a protected variable may also be a constant of its type *)
Theorem C54_protected_local_name : forall s vtype kind n b, ~ ends_nl s -> vtype <> [] ->
  check_fortran_literal s vtype kind = Ok b ->
  checks (fun e => check_local_name s true vtype kind e n) (b = true \/ reference n s) s.
Proof.
  intros s vt k n b N NE H. unfold check_local_name.
  assert (V : negb (is_nil vt) = true) by (destruct vt; [congruence|reflexivity]). rewrite V. cbn [andb]. rewrite H.
  destruct b; cbn [bind].
  - split; [auto|]. intros X. exfalso. apply X. now left.
  - destruct (C54_reference s n N) as [A B]. cbv beta in *. split.
    + intros [X|X]; [discriminate|]. now apply A.
    + intros X. apply B. intros Y. apply X. now right.
Qed.
Print Assumptions C54_protected_local_name.
Theorem C54_integer_constant : forall s vtype kind n, ~ ends_nl s -> lower vtype = L "integer" -> no_blank s -> kind_given kind s ->
  checks (fun e => check_local_name s true vtype kind e n) (of_kind int_literal kind s \/ reference n s) s.
Proof.
  intros s vt k n N T B K. destruct (C53_integer s vt k T B K) as (b & E & I).
  assert (NE : vt <> []) by (intros ->; discriminate).
  destruct (C54_protected_local_name s vt k n b N NE E) as [A1 A2]. rewrite I in A1, A2. split; auto.
Qed.
Print Assumptions C54_integer_constant.
Example C54_const_ex : check_local_name (L "12") true (L "integer") [] true 0 = Ok (Some (L "12")) /\
  check_local_name (L "12") false (L "integer") [] false 0 = Ok None /\ check_local_name (L "1x") true (L "integer") [] false 0 = Ok None.
Proof. repeat split. Qed.
Example C54_ex : check_fortran_ref (L "foo(bar, baz)") true 3 = Ok (Some (L "foo(bar, baz)")) /\ check_fortran_ref (L "foo( bar, bazz)") false 3 = Ok None /\
  check_fortran_ref (L "foo()") false 0 = Ok None /\ check_fortran_ref (L "f(1,:,3,4,5,6,7,8)") false 0 = Ok None /\ reference 3 (L "foo (:,12)").
Proof.
  split; [reflexivity|]. split; [reflexivity|]. split; [reflexivity|]. split; [reflexivity|]. right. exists (L "foo"), [L ":"; L "12"]. split.
  - split. { exists "f"%char, (L "oo"). split; auto. split; auto. intros d D. cbn in D. destruct D as [<-|[<-|[]]]; reflexivity. }
    split. { constructor; [right; left; reflexivity|]. constructor; [|constructor]. right. right. split; [discriminate|]. intros c [<-|[<-|[]]]; reflexivity. }
    split; [cbn; lia|]. exists (L " "), [L ":"; L "12"]. split; [intros c [<-|[]]; reflexivity|]. split; [|reflexivity].
    constructor; [exists [], []; split; [reflexivity|split; intros c []]|]. constructor; [exists [], []; split; [reflexivity|split; intros c []]|]. constructor.
  - repeat (constructor; [right; cbn; lia|]). constructor.
Qed.

(* ---- C55: units ---- *)
(* words joined by underscores; words with an underscore on both sides have two letters or more *)
Definition joined_words (s : str) : Prop :=
  exists a ms b, s = a ++ List.concat (map (fun m => "_"%char :: m) ms) ++ "_"%char :: b /\
    a <> [] /\ all_alpha a /\ b <> [] /\ all_alpha b /\ forall m, In m ms -> 2 <= length m /\ all_alpha m.
Lemma alpha_app a b : all_alpha (a ++ b) <-> all_alpha a /\ all_alpha b.
Proof. unfold all_alpha. split; [intros H; split; intros c C; apply H, in_app_iff; auto|]. intros [A B] c C. apply in_app_iff in C as [C|C]; auto. Qed.
Lemma pair_spec s : in_re (Cat letters_re (Cat (ch "_") letters_re)) s <-> exists a b, s = a ++ "_"%char :: b /\ (a <> [] /\ all_alpha a) /\ (b <> [] /\ all_alpha b).
Proof.
  rewrite in_cat. split.
  - intros (a & y & -> & A & Y). apply in_cat in Y as (u & b & -> & U & B). apply in_ch in U. subst u. apply plus_alpha in A. apply plus_alpha in B. exists a, b. auto.
  - intros (a & b & -> & A & B). exists a, ("_"%char :: b). split; auto. split; [now apply plus_alpha|]. apply in_cat. exists (L "_"), b. split; auto. split; [now apply in_ch|now apply plus_alpha].
Qed.
Lemma joined_cons a b s : a <> [] -> all_alpha a -> b <> [] -> all_alpha b -> joined_words s -> joined_words ((a ++ "_"%char :: b) ++ s).
Proof.
  intros A1 A2 B1 B2 (a' & ms & b' & -> & P1 & P2 & P3 & P4 & P5). exists a, ((b ++ a') :: ms), b'. split.
  - cbn [map List.concat]. rewrite <- !app_assoc. cbn [app]. rewrite <- !app_assoc. reflexivity.
  - split; auto. split; auto. split; auto. split; auto. intros m [<-|M]; [|auto]. split; [|apply alpha_app; auto].
    rewrite app_length. destruct b; [congruence|]. destruct a'; [congruence|]. cbn. lia.
Qed.
Lemma char_under_spec s : in_re char_under_re s <-> joined_words s.
Proof.
  unfold char_under_re, plus. rewrite in_cat. split.
  - intros (x & y & -> & X & Y). revert x X. remember (Star (Cat letters_re (Cat (ch "_") letters_re))) as R eqn:E. revert E.
    induction Y; intros E x X; try discriminate.
    + apply pair_spec in X as (u & v & -> & (A1 & A2) & (B1 & B2)). exists u, [], v. rewrite app_nil_r. cbn. split; auto. split; auto. split; auto. split; auto. split; auto. intros m [].
    + injection E as ->. apply pair_spec in X as (u & v & -> & (A1 & A2) & (B1 & B2)). apply joined_cons; auto.
  - intros (a & ms & b & -> & A1 & A2 & B1 & B2 & M). revert a A1 A2. induction ms as [|m ms IH]; intros a A1 A2.
    + cbn [map List.concat app]. exists (a ++ "_"%char :: b), []. split; [now rewrite app_nil_r|]. split; [apply pair_spec; exists a, b; auto|constructor].
    + destruct (M m (or_introl eq_refl)) as [LM AM]. destruct m as [|c [|d m]]; [cbn in LM; lia|cbn in LM; lia|].
      destruct (IH (fun m I => M m (or_intror I)) (d :: m)) as (x & y & E & X & Y); [discriminate|intros z Z; apply AM; now right|].
      exists (a ++ "_"%char :: [c]), (x ++ y). split.
      * rewrite <- E. cbn [map List.concat]. rewrite <- !app_assoc. reflexivity.
      * split; [apply pair_spec; exists a, [c]; split; auto; split; auto; split; [discriminate|]; intros z [<-|[]]; apply AM; now left|].
        apply IStarS; assumption.
Qed.
Definition unit_string (s : str) : Prop := unit_expr s \/ joined_words s \/ s = L "1".
Theorem C55_units : forall s, checks (check_units s) (unit_string (strip s)) s.
Proof.
  intros s. assert (U : re_dollar units_re (strip s) = true <-> unit_string (strip s)).
  { rewrite dollar_no_nl by apply strip_no_nl. unfold units_re, unit_string. rewrite !in_alt, char_under_spec, unit_list_spec, in_ch. tauto. }
  unfold checks, check_units. destruct (re_dollar units_re (strip s)).
  - split; auto. intros H. exfalso. apply H. now apply U.
  - split; [intros H; apply U in H; discriminate|]. intros _. split; [eexists|]; reflexivity.
Qed.
Print Assumptions C55_units.
Example C55_ex : check_units (L " W m-2 K10 ") true = Ok (Some (L " W m-2 K10 ")) /\ check_units (L "W  m-2") false = Ok None /\ check_units (L "m+2") false = Ok None /\
  check_units (L "m-02") false = Ok None /\ check_units (L "dobson_unit") true = Ok (Some (L "dobson_unit")) /\ check_units [] false = Ok None /\
  unit_string (L "W m-2").
Proof.
  do 6 (split; [reflexivity|]). left. apply (UMore (L "W") " " (L "m-2")); [|reflexivity|].
  - exists (L "W"), []. split; auto. split; [discriminate|]. split; auto. intros c [<-|[]]; reflexivity.
  - constructor. exists (L "m"), (L "-2"). split; auto. split; [discriminate|]. split; [intros c [<-|[]]; reflexivity|]. right. exists (L "-"), "2"%char, [].
    split; auto. split; auto. split; auto. split; [discriminate|]. intros c [].
Qed.

(* ---- C56: the error flag only chooses between raising and None ---- *)
Definition flag_only {A} (r : bool -> res (option A)) : Prop :=
  (forall v, r true = Ok (Some v) <-> r false = Ok (Some v)) /\ (r true <> Ok None) /\ (r false = Ok None <-> (exists m, r true = Raise m) /\ exists o, r false = Ok o).
Lemma checks_flag r P v : (P \/ ~ P) -> checks r P v -> flag_only r.
Proof.
  intros [H|H] [A B].
  - unfold flag_only. rewrite !(A H). split; [reflexivity|]. split; [discriminate|]. split; [discriminate|]. intros [(m & E) _]. discriminate.
  - destruct (B H) as [(m & E) F]. unfold flag_only. rewrite E, F. split; [split; discriminate|]. split; [discriminate|]. split; eauto.
Qed.
Lemma fail_flag m : flag_only (fun e => fail e m).
Proof. split; [split; discriminate|]. split; [discriminate|]. cbn. split; eauto. Qed.
Lemma ok_flag {A} (v : A) : flag_only (fun _ => Ok (Some v)).
Proof. split; [tauto|]. split; [discriminate|]. split; [discriminate|]. intros [(m & E) _]. discriminate. Qed.
Theorem C56_error_flag : forall s, 
  flag_only (check_units s) /\ (forall n, flag_only (fun e => check_fortran_id s e n)) /\ (forall n, flag_only (fun e => check_fortran_ref s e n)) /\
  flag_only (check_fortran_intrinsic s) /\ (forall ddts, flag_only (check_fortran_type ddts s)) /\ (s <> [] -> flag_only (check_cf_standard_name s)) /\
  (forall o, flag_only (check_diagnostic_fixed s o)) /\ (forall o, flag_only (check_diagnostic_id s o)).
Proof.
  intros s. pose proof fail_flag as F. pose proof (@ok_flag str) as K.
  assert (I : forall n, flag_only (fun e => check_fortran_id s e n)).
  { intros n. unfold check_fortran_id. destruct (re_dollar fortran_id_re s); [|apply F]. destruct ((0 <? n) && (n <? length s)); [apply F|apply K]. }
  split. { unfold check_units. destruct (re_dollar units_re (strip s)); [apply K|apply F]. }
  split; [exact I|]. split.
  { intros n. unfold check_fortran_ref. destruct (check_fortran_id s false n) as [[v|]|m] eqn:E; cbn [bind]; [apply K| |].
    - destruct (re_dollar scalar_ref_re s); [|apply F]. destruct ((0 <? n) && _); [apply F|apply K].
    - unfold check_fortran_id in E. destruct (re_dollar fortran_id_re s); [|discriminate]. destruct ((0 <? n) && (n <? length s)); discriminate. }
  split. { unfold check_fortran_intrinsic. cbv zeta. destruct (existsb (str_eqb (lower (strip s))) intrinsic_types || (str_eqb (firstn 6 (lower (strip s))) (L "double") && re_prefix dp_re (lower (strip s)))); [apply K|apply F]. }
  split.
  { intros d. unfold check_fortran_type, check_fortran_intrinsic. cbv zeta.
    destruct (existsb (str_eqb (lower (strip s))) intrinsic_types || (str_eqb (firstn 6 (lower (strip s))) (L "double") && re_prefix dp_re (lower (strip s)))); cbn [bind fail]; [apply K|].
    destruct (existsb (str_eqb s) d); [apply K|apply F]. }
  split. { intros NE. destruct s as [|c t]; [congruence|]. unfold check_cf_standard_name. destruct (re_dollar fortran_id_re (c :: t)); [apply K|apply F]. }
  split.
  - intros o. unfold check_diagnostic_fixed. destruct (negb (is_nil o)); [apply F|]. unfold check_fortran_id. destruct (re_dollar fortran_id_re s); cbn; [apply K|apply F].
  - intros o. unfold check_diagnostic_id. destruct (negb (is_nil o)); [apply F|]. destruct (re_dollar diag_re s); [apply K|apply F].
Qed.
Print Assumptions C56_error_flag.
Example C56_ex : check_fortran_id (L "2x") false 0 = Ok None /\ exists m, check_fortran_id (L "2x") true 0 = Raise m.
Proof. split; [reflexivity|eexists; reflexivity]. Qed.
(* not so for dimensions: size(...) is accepted only when errors are not raised *)
Theorem C56_dimensions_refuted : exists l m, check_dimensions l false 0 = Ok (Some l) /\ check_dimensions l true 0 = Raise m.
Proof. exists [L "size(foo)"]. eexists. split; reflexivity. Qed.
Print Assumptions C56_dimensions_refuted.

(* ---- C57: diagnostic names ---- *)
Lemma diag_spec s : in_re diag_re s <-> diag_name s.
Proof.
  unfold diag_re, diag_name. rewrite in_cat.
  assert (WS : forall t, in_re (opt (plus (Cls is_word))) t <-> forall c, In c t -> is_word c = true).
  { intros t. rewrite in_opt, in_plus_cls, forallb_forall. split; [intros [[_ Y]| ->]; [auto|intros c []]|]. intros Y. destruct t; [auto|left; split; [discriminate|auto]]. }
  split.
  - intros (p & q & -> & P & Q). exists p, q. split; auto. apply in_opt in P. apply in_opt in Q. split; [destruct P as [P|P]; [right; now apply fortran_id_spec|auto]|].
    destruct Q as [Q|Q]; [|auto]. right. apply in_cat in Q as (v & t & -> & V & T). exists v, t. rewrite in_alt, !in_word in V. split; auto. split; [tauto|now apply WS].
  - intros (p & q & -> & P & Q). exists p, q. split; auto. split; apply in_opt; [destruct P as [P|P]; [auto|left; now apply fortran_id_spec]|].
    destruct Q as [Q|(v & t & -> & V & T)]; [auto|]. left. apply in_cat. exists v, t. split; auto. split; [rewrite in_alt, !in_word; tauto|now apply WS].
Qed.
Theorem C57_diagnostic_name : forall s, ~ ends_nl s -> checks (check_diagnostic_id s []) (diag_name s) s.
Proof.
  intros s N. assert (D : re_dollar diag_re s = true <-> diag_name s) by (rewrite dollar_no_nl by auto; apply diag_spec).
  unfold checks, check_diagnostic_id. cbn [is_nil negb]. destruct (re_dollar diag_re s).
  - split; auto. intros H. exfalso. apply H. now apply D.
  - split; [intros H; apply D in H; discriminate|]. intros _. split; [eexists|]; reflexivity.
Qed.
Print Assumptions C57_diagnostic_name.
Theorem C57_fixed_name : forall s, ~ ends_nl s -> checks (check_diagnostic_fixed s []) (fortran_name s) s.
Proof.
  intros s N. pose proof (id_dollar s N) as D. unfold checks, check_diagnostic_fixed, check_fortran_id. cbn [is_nil negb Nat.ltb Nat.leb andb].
  destruct (re_dollar fortran_id_re s); cbn.
  - split; auto. intros H. exfalso. apply H. now apply D.
  - split; [intros H; apply D in H; discriminate|]. intros _. split; [eexists|]; reflexivity.
Qed.
Print Assumptions C57_fixed_name.
Theorem C57_not_both : forall s other, other <> [] ->
  ((exists m, check_diagnostic_id s other true = Raise m) /\ check_diagnostic_id s other false = Ok None) /\
  ((exists m, check_diagnostic_fixed s other true = Raise m) /\ check_diagnostic_fixed s other false = Ok None).
Proof. intros s [|c o] N; [congruence|]. split; (split; [eexists|]; reflexivity). Qed.
Print Assumptions C57_not_both.
Example C57_ex : check_diagnostic_id (L "foo_${process}_3") [] true = Ok (Some (L "foo_${process}_3")) /\ check_diagnostic_id (L "foo_${processor}_bar") [] false = Ok None /\
  check_diagnostic_id (L "pref_${scheme_name}_${process}") [] false = Ok None /\ check_diagnostic_fixed (L "foo_${process}") [] false = Ok None.
Proof. repeat split. Qed.

(* ---- C58: dimension lists ---- *)
Definition is_int (s : str) : Prop := exists z, py_int s = Some z.
Definition dim_ok (n : nat) (item : str) : Prop :=
  length (split_on ":" item) <= 3 /\ forall part, In part (split_on ":" item) -> part <> [] -> is_int (strip part) \/ (fortran_name (strip part) /\ short n (strip part)).
Lemma part_true n t : check_dim_part true n (strip t) = Ok true <-> is_int (strip t) \/ (fortran_name (strip t) /\ short n (strip t)).
Proof.
  unfold check_dim_part, is_int. destruct (py_int (strip t)) as [z|]; [cbn; split; eauto|]. cbn [is_some].
  destruct (C20_fortran_id (strip t) n (strip_no_nl t)) as [A B]. cbv beta in A, B.
  assert (DEC : (fortran_name (strip t) /\ short n (strip t)) \/ ~ (fortran_name (strip t) /\ short n (strip t))).
  { rewrite <- (id_dollar _ (strip_no_nl t)), <- long_test. destruct (re_dollar fortran_id_re (strip t)), ((0 <? n) && (n <? length (strip t))); intuition discriminate. }
  destruct DEC as [D|D].
  - rewrite (A D). cbn. split; auto.
  - destruct (B D) as [(m & ->) _]. cbn. split; [discriminate|]. intros [(z & Z)|H]; [discriminate|contradiction].
Qed.
Lemma part_true_not n t : check_dim_part true n (strip t) <> Ok true -> check_dim_part true n (strip t) = Ok false \/ exists m, check_dim_part true n (strip t) = Raise m.
Proof. destruct (check_dim_part true n (strip t)) as [[]|]; intros H; [congruence|auto|eauto]. Qed.
Lemma parts_true n l : (check_dim_parts true n (map strip l) = Ok true <-> forall p, In p l -> check_dim_part true n (strip p) = Ok true).
Proof.
  induction l as [|p l IH]; cbn [map check_dim_parts]; [split; auto; intros _ p []|]. split.
  - intros H. apply bind_ok in H as (v & H1 & H2). destruct v; [|discriminate]. intros q [<-|Q]; auto. apply IH; auto.
  - intros H. rewrite (H p) by now left. cbn [bind]. apply IH. intros q Q. apply H. now right.
Qed.
Lemma loop_true n l ok : check_dims_loop true n l ok = Ok ok \/ exists m, check_dims_loop true n l ok = Raise m.
Proof.
  induction l as [|i l IH]; cbn [check_dims_loop]; [auto|]. destruct (3 <? length (split_on ":" i)); [eauto|].
  destruct (check_dim_parts true n (dim_parts i)) as [[]|]; cbn [bind]; eauto.
Qed.
Lemma item_true n item : dim_ok n item <-> (3 <? length (split_on ":" item)) = false /\ check_dim_parts true n (dim_parts item) = Ok true.
Proof.
  unfold dim_ok, dim_parts. rewrite Nat.ltb_ge, parts_true. split; intros [A B]; split; auto.
  - intros p P. apply filter_In in P as [P1 P2]. apply part_true. apply B; auto. intros ->. discriminate.
  - intros p P NE. apply part_true. apply B. apply filter_In. split; auto. destruct p; [congruence|reflexivity].
Qed.
(* with errors raised: every item is a range of at most three parts, each empty, an
   integer or a short identifier *)
Theorem C58_dimensions : forall l n,
  (check_dimensions l true n = Ok (Some l) <-> Forall (dim_ok n) l) /\ (~ Forall (dim_ok n) l -> exists m, check_dimensions l true n = Raise m).
Proof.
  intros l n. unfold check_dimensions.
  assert (X : check_dims_loop true n l true = Ok true <-> Forall (dim_ok n) l).
  { induction l as [|i l IH]; cbn [check_dims_loop]; [split; auto|]. pose proof (item_true n i) as I. split.
    - destruct (3 <? length (split_on ":" i)); [discriminate|]. intros H. apply bind_ok in H as (v & H1 & H2). destruct v; [|discriminate]. constructor; [now apply I|now apply IH].
    - intros H. inversion H as [|? ? H1 H2]; subst. apply I in H1 as [-> ->]. cbn [bind]. now apply IH. }
  rewrite <- X. destruct (loop_true n l true) as [-> |(m & ->)]; cbn [bind].
  - split; [split; auto|]. intros H. congruence.
  - split; [split; discriminate|]. intros _. eauto.
Qed.
Print Assumptions C58_dimensions.
Lemma part_incl n t : check_dim_part true n t = Ok true -> check_dim_part false n t = Ok true.
Proof.
  unfold check_dim_part. destruct (is_some (py_int t)); auto. intros H. apply bind_ok in H as (r & H1 & H2).
  destruct (C56_error_flag t) as (_ & F & _). specialize (F n). destruct F as (F1 & F2 & _). destruct r as [v|]; [|contradiction]. apply F1 in H1. rewrite H1. reflexivity.
Qed.
(* without errors raised nothing that is valid is refused *)
Theorem C58_dimensions_accepts : forall l n, Forall (dim_ok n) l -> check_dimensions l false n = Ok (Some l).
Proof.
  intros l n H. unfold check_dimensions. assert (X : check_dims_loop false n l true = Ok true); [|rewrite X; reflexivity].
  induction H as [|i l I _ IH]; cbn [check_dims_loop]; auto. apply item_true in I as [-> I].
  assert (Y : check_dim_parts false n (dim_parts i) = Ok true); [|rewrite Y; cbn [bind]; exact IH].
  revert I. generalize (dim_parts i). intros ps. induction ps as [|p ps IHp]; cbn [check_dim_parts]; auto. intros K. apply bind_ok in K as (v & K1 & K2).
  destruct v; [|discriminate]. rewrite (part_incl _ _ K1). cbn [bind]. auto.
Qed.
Print Assumptions C58_dimensions_accepts.
(* too many parts are refused either way *)
Theorem C58_too_many_parts : forall pre item post n, Forall (dim_ok n) pre -> 3 < length (split_on ":" item) ->
  check_dimensions (pre ++ item :: post) false n = Ok None.
Proof.
  intros pre item post n P T. unfold check_dimensions. assert (X : check_dims_loop false n (pre ++ item :: post) true = Ok false); [|rewrite X; reflexivity].
  induction P as [|i l I _ IH]; cbn [check_dims_loop app]; [apply Nat.ltb_lt in T; now rewrite T|]. apply item_true in I as [-> I].
  assert (Y : check_dim_parts false n (dim_parts i) = Ok true); [|rewrite Y; cbn [bind]; exact IH].
  revert I. generalize (dim_parts i). intros ps. induction ps as [|p ps IHp]; cbn [check_dim_parts]; auto. intros K. apply bind_ok in K as (v & K1 & K2).
  destruct v; [|discriminate]. rewrite (part_incl _ _ K1). cbn [bind]. auto.
Qed.
Print Assumptions C58_too_many_parts.
(* ... and a list with any invalid item is refused either way, when no part has the
   form size(...) *)
Theorem C58_bad_item_refused : forall l n, ~ Forall (dim_ok n) l ->
  (forall item part, In item l -> In part (split_on ":" item) -> firstn 4 (lower (strip part)) <> L "size") ->
  check_dimensions l false n = Ok None.
Proof.
  intros l n H S. unfold check_dimensions.
  assert (PART : forall t, firstn 4 (lower (strip t)) <> L "size" ->
    exists b, check_dim_part false n (strip t) = Ok b /\ (b = true <-> is_int (strip t) \/ (fortran_name (strip t) /\ short n (strip t)))).
  { intros t T. unfold check_dim_part, is_int. destruct (py_int (strip t)) as [z|]; cbn [is_some]; [exists true; split; [auto|]; split; eauto|].
    destruct (C20_fortran_id (strip t) n (strip_no_nl t)) as [A B]. cbv beta in A, B.
    assert (DEC : (fortran_name (strip t) /\ short n (strip t)) \/ ~ (fortran_name (strip t) /\ short n (strip t))).
    { rewrite <- (id_dollar _ (strip_no_nl t)), <- long_test. destruct (re_dollar fortran_id_re (strip t)), ((0 <? n) && (n <? length (strip t))); intuition discriminate. }
    destruct DEC as [D|D].
    - rewrite (A D). exists true. split; auto. split; auto.
    - destruct (B D) as [_ E]. rewrite E. cbn [bind is_some]. rewrite strip_idem. apply str_eqb_neq in T. rewrite T. exists false. split; auto.
      split; [discriminate|]. intros [(z & Z)|X]; [discriminate|contradiction]. }
  assert (PARTS : forall ps, (forall p, In p ps -> firstn 4 (lower (strip p)) <> L "size") ->
    exists b, check_dim_parts false n (map strip ps) = Ok b /\ (b = true <-> forall p, In p ps -> is_int (strip p) \/ (fortran_name (strip p) /\ short n (strip p)))).
  { induction ps as [|p ps IH]; intros SP; cbn [map check_dim_parts].
    - exists true. split; auto. split; auto. intros _ p [].
    - destruct (PART p (SP p (or_introl eq_refl))) as (b & -> & I). cbn [bind]. destruct b.
      + destruct IH as (b & E & J); [intros q Q; apply SP; now right|]. exists b. split; auto. rewrite J. split.
        * intros X q [<-|Q]; [now apply I|auto].
        * intros X q Q. apply X. now right.
      + exists false. split; auto. split; [discriminate|]. intros X. apply I. apply X. now left. }
  assert (X : forall l ok, (forall item part, In item l -> In part (split_on ":" item) -> firstn 4 (lower (strip part)) <> L "size") ->
    (ok = false \/ ~ Forall (dim_ok n) l) -> check_dims_loop false n l ok = Ok false).
  { clear l H S. induction l as [|i l IH]; intros ok S H; cbn [check_dims_loop].
    - destruct H as [-> |H]; auto. exfalso. apply H. constructor.
    - destruct (3 <? length (split_on ":" i)) eqn:T; auto. apply Nat.ltb_ge in T.
      unfold dim_parts. destruct (PARTS (List.filter (fun x => negb (is_nil x)) (split_on ":" i))) as (b & -> & J).
      { intros p P. apply filter_In in P as [P _]. apply (S i p); [now left|auto]. }
      assert (OK : b = true <-> dim_ok n i).
      { rewrite J. unfold dim_ok. split.
        - intros Q. split; auto. intros p P NE. apply Q. apply filter_In. split; auto. destruct p; [congruence|reflexivity].
        - intros [_ Q] p P. apply filter_In in P as [P1 P2]. apply Q; auto. intros ->. discriminate. }
      cbn [bind]. destruct b.
      + apply IH; [intros item part I1; apply S; now right|]. destruct H as [H|H]; [now left|]. right. intros F. apply H. constructor; auto. now apply OK.
      + apply IH; [intros item part I1; apply S; now right|]. now left. }
  rewrite (X l true S (or_intror H)). reflexivity.
Qed.
Print Assumptions C58_bad_item_refused.
Example C58_ex : check_dimensions [L "dim1"; L "1:dim2"; L "ccpp_constant_one:dim3:2"; L ":"] true 0 = Ok (Some [L "dim1"; L "1:dim2"; L "ccpp_constant_one:dim3:2"; L ":"]) /\
  (exists m, check_dimensions [L "dim1"; L "a:b:c:d"] true 0 = Raise m) /\ (exists m, check_dimensions [L "dim one"] true 0 = Raise m) /\
  check_dimensions [L "dim one"] false 0 = Ok None.
Proof. split; [reflexivity|]. split; [eexists; reflexivity|]. split; [eexists; reflexivity|reflexivity]. Qed.

(* ---- C59: parenthesised lists ---- *)
Definition plain (s : str) : Prop := forall c, In c s -> c <> "("%char /\ c <> ")"%char /\ c <> "'"%char /\ c <> """"%char.
Lemma loop_plain s d b : plain s -> forall t i, paren_loop (s ++ t) i d None b = paren_loop t (i + length s) d None b.
Proof.
  induction s as [|c s IH]; intros P t i; cbn [app length]; [now rewrite Nat.add_0_r|].
  destruct (P c (or_introl eq_refl)) as (A1 & A2 & A3 & A4). cbn [paren_loop].
  apply Ascii.eqb_neq in A1, A2, A3, A4. rewrite A1, A2, A3, A4. cbn [orb]. rewrite IH by (intros x X; apply P; now right). f_equal. lia.
Qed.
Lemma plain_join items : (forall x, In x items -> plain x) -> plain (join (L ",") items).
Proof.
  intros H c C. apply join_in in C as [[<-|[]]|(p & P & C)].
  - split; [discriminate|]. split; [discriminate|]. split; discriminate.
  - exact (H p P c C).
Qed.
Lemma slice_mid pre J post : slice (pre ++ "("%char :: J ++ ")"%char :: post) (0 + length pre + 1) (S (0 + length pre) + length J) = J.
Proof.
  unfold slice. replace (pre ++ "("%char :: J ++ ")"%char :: post) with (((pre ++ ["("%char]) ++ J) ++ ")"%char :: post) by (rewrite <- !app_assoc; reflexivity).
  assert (A : length (pre ++ ["("%char]) = length pre + 1) by apply app_length.
  assert (B : length ((pre ++ ["("%char]) ++ J) = length pre + 1 + length J) by (rewrite app_length, A; reflexivity).
  rewrite firstn_app, firstn_all2 by (rewrite B; lia). rewrite B. replace (S (0 + length pre) + length J - (length pre + 1 + length J)) with 0 by lia. cbn [firstn]. rewrite app_nil_r.
  rewrite skipn_app, skipn_all2 by (rewrite A; lia). rewrite A. replace (0 + length pre + 1 - (length pre + 1)) with 0 by lia. reflexivity.
Qed.
Theorem C59_list : forall pre items post, plain pre -> items <> [] -> (forall x, In x items -> plain x /\ ~ In ","%char x) ->
  fortran_list_match (pre ++ L "(" ++ join (L ",") items ++ L ")" ++ post) =
  Ok (if (1 <? length items) && existsb is_nil (map strip items) then None else Some (map strip items)).
Proof.
  intros pre items post P NE H. unfold fortran_list_match, check_balanced_paren. cbv zeta. cbn [skipn].
  rewrite loop_plain by auto. cbn [L list_ascii_of_string app paren_loop]. cbn [Ascii.eqb Bool.eqb orb Z.eqb Z.add].
  change (Z.eqb (0 + 1) 0) with false. cbn iota.
  assert (PJ : plain (join (L ",") items)) by (apply plain_join; intros x X; now apply H).
  change (join [","%char] items) with (join (L ",") items). rewrite loop_plain by auto. cbn [paren_loop]. cbn [Ascii.eqb Bool.eqb orb]. change (Z.eqb (1 - 1) 0) with true. cbn iota.
  change (Z.pos 1 - 1 =? 0)%Z with true. cbn iota. cbn [bind].
  set (J := join (L ",") items) in *. replace (0 + length pre <? S (0 + length pre) + length J) with true by (symmetry; apply Nat.ltb_lt; lia).
  rewrite (slice_mid pre J post).
  unfold J. change (L ",") with [","%char]. rewrite split_join by (auto; intros p Q; now apply H). rewrite map_length.
  destruct ((1 <? length items) && existsb is_nil (map strip items)); reflexivity.
Qed.
Print Assumptions C59_list.
Example C59_ex : fortran_list_match (L "(foo, bar)") = Ok (Some [L "foo"; L "bar"]) /\ fortran_list_match (L "(foo, )") = Ok None /\ fortran_list_match (L "foo") = Ok None.
Proof. repeat split. Qed.
(* commas inside nested parentheses are not kept together *)
Theorem C59_nested_refuted : fortran_list_match (L "(size(foo,1), b)") = Ok (Some [L "size(foo"; L "1)"; L "b"]).
Proof. reflexivity. Qed.
Print Assumptions C59_nested_refuted.

(* ---- C60: type names ---- *)
Definition type_text (s : str) : Prop :=
  In (lower (strip s)) intrinsic_types \/
  exists w r, all_space w /\ lower (strip s) = L "double" ++ w ++ L "precision" ++ r.
Lemma lower_id_char c : lower_c (lower_c c) = lower_c c.
Proof. destruct c as [[] [] [] [] [] [] [] []]; reflexivity. Qed.
Lemma app_inv_length {A} (a b c d : list A) : a ++ b = c ++ d -> length a = length c -> a = c /\ b = d.
Proof. revert c. induction a as [|x a IH]; intros [|y c] E H; cbn in *; try discriminate; auto. injection E as -> E. injection H as H. destruct (IH _ E H) as [-> ->]. auto. Qed.
Lemma lower_fixed s p q : lower s = p ++ q -> lower p = p.
Proof. intros E. pose proof (lower_idem s) as I. rewrite E in I. unfold lower in I. rewrite map_app in I. apply app_inv_length in I as [I _]; [exact I|apply map_length]. Qed.
Lemma intrinsic_test s : existsb (str_eqb (lower (strip s))) intrinsic_types || (str_eqb (firstn 6 (lower (strip s))) (L "double") && re_prefix dp_re (lower (strip s))) = true <-> type_text s.
Proof.
  unfold type_text. rewrite orb_true_iff, andb_true_iff, str_eqb_eq, re_prefix_spec. rewrite existsb_exists. split.
    - intros [(x & X & E)|(_ & p & q & E & P)].
      + left. apply str_eqb_eq in E. now rewrite E.
      + right. pose proof (lower_fixed _ _ _ E) as LP. unfold dp_re in P. apply in_cat in P as (a & y & -> & A & Y). apply in_cat in Y as (w & b & -> & W & B).
        apply in_wordi in A. apply in_wordi in B. apply star_space in W. exists w, q. split; auto. rewrite E, <- !app_assoc.
        unfold lower in LP. rewrite !map_app in LP. apply app_inv_length in LP as [LA LP]; [|apply map_length]. apply app_inv_length in LP as [_ LB]; [|apply map_length].
        unfold lower in A, B. rewrite LA in A. rewrite LB in B. now rewrite A, B.
    - intros [H|(w & r & W & E)].
      + left. exists (lower (strip s)). split; auto. apply str_eqb_refl.
      + right. rewrite E. split; [reflexivity|]. exists (L "double" ++ w ++ L "precision"), r. split; [now rewrite <- !app_assoc|].
        unfold dp_re. apply in_cat. exists (L "double"), (w ++ L "precision"). split; auto. split; [now apply in_wordi|]. apply in_cat. exists w, (L "precision").
        split; auto. split; [now apply star_space|now apply in_wordi].
Qed.
Theorem C60_intrinsic : forall s, checks (check_fortran_intrinsic s) (type_text s) s.
Proof.
  intros s. pose proof (intrinsic_test s) as T.
  unfold checks, check_fortran_intrinsic. cbv zeta.
  destruct (existsb (str_eqb (lower (strip s))) intrinsic_types || (str_eqb (firstn 6 (lower (strip s))) (L "double") && re_prefix dp_re (lower (strip s)))).
  - split; auto. intros H. exfalso. apply H. now apply T.
  - split; [intros H; apply T in H; discriminate|]. intros _. split; [eexists|]; reflexivity.
Qed.
Print Assumptions C60_intrinsic.
Theorem C60_type : forall names s, checks (check_fortran_type (fold_left register_ddt names []) s) (type_text s \/ In s names) s.
Proof.
  intros names s. assert (R : forall acc, In s (fold_left register_ddt names acc) <-> In s acc \/ In s names).
  { induction names as [|x l IH]; intros acc; cbn [fold_left]; [cbn; tauto|]. rewrite IH. unfold register_ddt. destruct (existsb (str_eqb x) acc) eqn:E.
    - apply existsb_exists in E as (y & Y & E). apply str_eqb_eq in E. subst y. cbn. split; [tauto|]. intros [H|[<-|H]]; auto.
    - rewrite in_app_iff. cbn. tauto. }
  specialize (R []). set (D := fold_left register_ddt names []) in *.
  assert (M : existsb (str_eqb s) D = true <-> In s names). { assert (R' : In s D <-> In s names) by (rewrite R; cbn; tauto). rewrite existsb_exists, <- R'.
    split; [intros (x & X & E); apply str_eqb_eq in E; now subst|]. intros H. exists s. split; auto. apply str_eqb_refl. }
  destruct (C60_intrinsic s) as [A B]. unfold checks, check_fortran_type.
  destruct (check_fortran_intrinsic s false) as [[v|]|m] eqn:E; cbn [bind].
  - assert (TT : ~ ~ type_text s) by (intros H; destruct (B H) as [_ K]; congruence). split; auto. intros H. exfalso. tauto.
  - assert (TT : ~ type_text s) by (intros H; rewrite (A H) in E; discriminate). destruct (existsb (str_eqb s) D).
    + split; auto. intros H. exfalso. apply H. right. now apply M.
    + split; [intros [H|H]; [contradiction|apply M in H; discriminate]|]. intros _. split; [eexists|]; reflexivity.
  - exfalso. unfold check_fortran_intrinsic in E. cbv zeta in E. destruct (existsb (str_eqb (lower (strip s))) intrinsic_types || (str_eqb (firstn 6 (lower (strip s))) (L "double") && re_prefix dp_re (lower (strip s)))); discriminate.
Qed.
Print Assumptions C60_type.
Example C60_ex : check_fortran_intrinsic (L "DOUBLE   precision") true = Ok (Some (L "DOUBLE   precision")) /\ check_fortran_intrinsic (L "char") false = Ok None /\
  check_fortran_type (fold_left register_ddt [L "my_ddt"] []) (L "my_ddt") true = Ok (Some (L "my_ddt")).
Proof. repeat split. Qed.
(* text after "double precision" is not looked at *)
Theorem C60_trailing_refuted : check_fortran_intrinsic (L "double precisionist") true = Ok (Some (L "double precisionist")).
Proof. reflexivity. Qed.
Print Assumptions C60_trailing_refuted.
