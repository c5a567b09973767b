(* DeclProofs.v: lemmas about the model of declarations. *)
From Verif Require Import PyStr Base LineSpec LineModel LineProofs CheckModel CheckProofs ParenSpec ParenProofs ParenProps DeclModel DeclSpec.
From Coq Require Import Lia.
Open Scope nat_scope.
Open Scope list_scope.

(* ---- characters ---- *)
Lemma noin (f : ascii -> bool) (s : str) c : forallb f s = true -> f c = false -> ~ In c s.
Proof. intros F C I. rewrite forallb_forall in F. rewrite (F c I) in C. discriminate. Qed.
Lemma has_c_in c (s : str) : has_c c s = true <-> In c s.
Proof. unfold has_c. rewrite existsb_exists. split; [intros (x & I & E); apply Ascii.eqb_eq in E; now subst|intros I; exists c; split; auto; apply Ascii.eqb_refl]. Qed.
Lemma has_c_not c (s : str) : has_c c s = false <-> ~ In c s.
Proof. rewrite <- has_c_in. destruct (has_c c s); split; congruence. Qed.
Lemma lower_app a b : lower (a ++ b) = lower a ++ lower b. Proof. apply map_app. Qed.
Lemma lower_len a : length (lower a) = length a. Proof. apply map_length. Qed.
Lemma byte_cases (P : ascii -> Prop) : (forall n, n < 256 -> P (ascii_of_nat n)) -> forall c, P c.
Proof. intros H c. rewrite <- (ascii_nat_embedding c). apply H. apply nat_ascii_bounded. Qed.
Fixpoint all_below (n : nat) (f : ascii -> bool) : bool := match n with 0 => true | S k => f (ascii_of_nat k) && all_below k f end.
Lemma all_below_spec n f : all_below n f = true -> forall k, k < n -> f (ascii_of_nat k) = true.
Proof. induction n as [|n IH]; cbn; intros H k K; [lia|]. apply andb_true_iff in H as [A B]. destruct (Nat.eq_dec k n); [now subst|apply IH; auto; lia]. Qed.
Lemma every_char (f : ascii -> bool) : all_below 256 f = true -> forall c, f c = true.
Proof. intros H. apply byte_cases. now apply all_below_spec. Qed.
Ltac bychar c := revert c; match goal with |- forall c, ?f c = true => apply (every_char f); vm_compute; reflexivity end.
Lemma lower_space c : is_space (lower_c c) = is_space c.
Proof. apply Bool.eqb_prop. revert c. apply (every_char (fun c => Bool.eqb (is_space (lower_c c)) (is_space c))). vm_compute. reflexivity. Qed.
Lemma lower_alpha c : is_alpha (lower_c c) = is_alpha c.
Proof. apply Bool.eqb_prop. revert c. apply (every_char (fun c => Bool.eqb (is_alpha (lower_c c)) (is_alpha c))). vm_compute. reflexivity. Qed.
Lemma lower_same c d : is_alpha d = false -> Ascii.eqb (lower_c c) d = Ascii.eqb c d.
Proof.
  intros A. assert (X : forall c, implb (is_alpha c) (is_alpha (lower_c c)) && (is_alpha c || Ascii.eqb (lower_c c) c) = true).
  { apply (every_char (fun c => implb (is_alpha c) (is_alpha (lower_c c)) && (is_alpha c || Ascii.eqb (lower_c c) c))). vm_compute. reflexivity. }
  specialize (X c). destruct (is_alpha c) eqn:B; cbn [implb andb orb] in X.
  - rewrite andb_true_r in X. destruct (Ascii.eqb_spec (lower_c c) d) as [E|]; [congruence|]. destruct (Ascii.eqb_spec c d) as [E|]; congruence.
  - apply Ascii.eqb_eq in X. now rewrite X.
Qed.
Lemma word_not_space c : is_word c = true -> is_space c = false.
Proof. intros W. assert (X : forall c, implb (is_word c) (negb (is_space c)) = true) by (apply (every_char (fun c => implb (is_word c) (negb (is_space c)))); vm_compute; reflexivity).
  specialize (X c). rewrite W in X. now destruct (is_space c). Qed.
Lemma alpha_word c : is_alpha c = true -> is_word c = true.
Proof. unfold is_word. now intros ->. Qed.
Lemma digit_word c : is_digit c = true -> is_word c = true.
Proof. unfold is_word. intros ->. now rewrite orb_true_r. Qed.
Lemma alpha_not_space c : is_alpha c = true -> is_space c = false.
Proof. intros. now apply word_not_space, alpha_word. Qed.
(* text all of whose characters are letters up to case *)
Lemma spells_alpha (t w : str) : spells t w -> forallb is_alpha w = true -> forallb is_alpha t = true.
Proof. unfold spells. intros <-. unfold lower. intros F. rewrite forallb_forall in *. intros c I. rewrite <- lower_alpha. apply F. now apply in_map. Qed.
Lemma forallb_app_iff (f : ascii -> bool) (a b : str) : forallb f (a ++ b) = true <-> forallb f a = true /\ forallb f b = true.
Proof. rewrite forallb_app. apply andb_true_iff. Qed.
Lemma forallb_impl (f g : ascii -> bool) (s : str) : (forall c, f c = true -> g c = true) -> forallb f s = true -> forallb g s = true.
Proof. rewrite !forallb_forall. auto. Qed.

(* ---- strip ---- *)
Lemma take_stop (f : ascii -> bool) (a b : str) : forallb f a = true -> match b with x :: _ => f x = false | [] => True end ->
  takewhile f (a ++ b) = a /\ dropwhile f (a ++ b) = b.
Proof. intros F B. induction a as [|c a IH]; cbn in *; [destruct b; cbn; auto; now rewrite B|]. apply andb_true_iff in F as [-> F]. destruct (IH F) as [-> ->]. auto. Qed.
Lemma lstrip_blank w s : blank w -> lstrip (w ++ s) = lstrip s.
Proof. unfold blank, lstrip. induction w as [|c w IH]; cbn; auto. intros H. apply andb_true_iff in H as [-> H]. auto. Qed.
Lemma lstrip_head c s : is_space c = false -> lstrip (c :: s) = c :: s.
Proof. unfold lstrip. cbn. now intros ->. Qed.
Lemma blank_rev w : blank w -> blank (rev w).
Proof. unfold blank. rewrite !forallb_forall. intros H c I. apply H. now apply in_rev. Qed.
Lemma rstrip_blank s w : blank w -> rstrip (s ++ w) = rstrip s.
Proof. intros B. unfold rstrip. rewrite rev_app_distr. f_equal. apply (lstrip_blank (rev w) (rev s)). now apply blank_rev. Qed.
Lemma rstrip_end s c : is_space c = false -> rstrip (s ++ [c]) = s ++ [c].
Proof. intros H. unfold rstrip. rewrite rev_app_distr. cbn. rewrite H. cbn. now rewrite rev_involutive. Qed.
Lemma rstrip_nil w : blank w -> rstrip w = [].
Proof. intros B. change w with ([] ++ w). now rewrite rstrip_blank. Qed.
Lemma lstrip_nil w : blank w -> lstrip w = [].
Proof. intros B. rewrite <- (app_nil_r w). now rewrite lstrip_blank. Qed.
Lemma blank_or_last (s : str) : blank s \/ exists p c w, s = p ++ c :: w /\ is_space c = false /\ blank w.
Proof.
  induction s as [|c s IH]; [left; reflexivity|]. destruct IH as [B|(p & d & w & -> & D & W)].
  - destruct (is_space c) eqn:E; [left; unfold blank; cbn; now rewrite E|right; exists [], c, s; auto].
  - right. exists (c :: p), d, w. auto.
Qed.
(* strip on the right does not touch a text ending in a non-blank *)
Lemma rstrip_after p c s : is_space c = false -> rstrip (p ++ c :: s) = p ++ c :: rstrip s.
Proof.
  intros C. destruct (blank_or_last s) as [B|(q & d & w & -> & D & W)].
  - rewrite (rstrip_nil s B). change (c :: s) with ([c] ++ s). rewrite app_assoc, rstrip_blank by auto. now apply rstrip_end.
  - assert (E : forall u, rstrip (u ++ d :: w) = u ++ [d]).
    { intros u. change (d :: w) with ([d] ++ w). rewrite app_assoc, rstrip_blank by auto. now apply rstrip_end. }
    rewrite E. change (c :: q ++ d :: w) with ((c :: q) ++ d :: w). rewrite app_assoc, E. now rewrite <- app_assoc.
Qed.
Lemma strip_blank_l w s : blank w -> strip (w ++ s) = strip s.
Proof. intros. unfold strip. now rewrite lstrip_blank. Qed.
Lemma strip_blank_r s w : blank w -> strip (s ++ w) = strip s.
Proof.
  intros B. unfold strip. destruct (blank_or_last s) as [Z|(p & c & v & -> & C & V)].
  - rewrite (lstrip_nil s Z), lstrip_nil; auto. unfold blank in *. apply forallb_app_iff. auto.
  - assert (X : forall u, lstrip ((p ++ c :: v) ++ u) = lstrip (p ++ c :: v) ++ u).
    { intros u. induction p as [|d p IH]; cbn; [unfold lstrip; cbn; now rewrite C|]. unfold lstrip in *. cbn. destruct (is_space d); auto. }
    rewrite X. now apply rstrip_blank.
Qed.
Lemma strip_blank w : blank w -> strip w = [].
Proof. intros. unfold strip. now rewrite lstrip_nil. Qed.
Lemma strip_from c s : is_space c = false -> strip (c :: s) = c :: rstrip s.
Proof. intros C. unfold strip. rewrite lstrip_head by auto. now apply (rstrip_after [] c s). Qed.
(* a core that starts and ends with non-blanks *)
Definition solid (s : str) : Prop := (exists c t, s = c :: t /\ is_space c = false) /\ (exists t c, s = t ++ [c] /\ is_space c = false).
Lemma strip_solid s : solid s -> strip s = s.
Proof. intros [(c & t & E & C) (u & d & E' & D)]. unfold strip. rewrite E at 1. rewrite lstrip_head by auto. rewrite <- E, E'. now apply rstrip_end. Qed.
Lemma strip_core w s v : blank w -> blank v -> solid s -> strip (w ++ s ++ v) = s.
Proof. intros. rewrite strip_blank_l, strip_blank_r by auto. now apply strip_solid. Qed.
Lemma solid_chars s : s <> [] -> (forall c, In c s -> is_space c = false) -> solid s.
Proof.
  intros N F. split; [destruct s as [|c t]; [easy|exists c, t; split; auto; apply F; now left]|].
  destruct (exists_last N) as (t & c & ->). exists t, c. split; auto. apply F, in_app_iff. right. now left.
Qed.
Lemma solid_word s : s <> [] -> forallb is_word s = true -> solid s.
Proof. intros N F. apply solid_chars; auto. intros c I. rewrite forallb_forall in F. now apply word_not_space, F. Qed.
Lemma solid_app a b : solid a -> solid b -> forall m, solid (a ++ m ++ b).
Proof. intros [(c & t & -> & C) _] [_ (u & d & -> & D)] m. split; [exists c, (t ++ m ++ u ++ [d]); auto|exists ((c :: t) ++ m ++ u), d; split; auto; now rewrite <- !app_assoc]. Qed.
Lemma solid_two c d m : is_space c = false -> is_space d = false -> solid (c :: m ++ [d]).
Proof. intros C D. split; [exists c, (m ++ [d]); auto|exists (c :: m), d; auto]. Qed.
Lemma ident_word n : identifier n -> n <> [] /\ forallb is_word n = true.
Proof. intros (c & t & -> & A & F). split; [easy|]. cbn. now rewrite (alpha_word c A), F. Qed.
Lemma ident_solid n : identifier n -> solid n.
Proof. intros H. apply ident_word in H as []. now apply solid_word. Qed.
Lemma spells_ne t w : spells t w -> w <> [] -> t <> [].
Proof. unfold spells. intros <- N ->. now apply N. Qed.
Lemma spells_solid t w : spells t w -> w <> [] -> forallb is_alpha w = true -> solid t.
Proof. intros H N F. apply solid_word; [now apply (spells_ne t w)|]. apply (forallb_impl is_alpha); [apply alpha_word|]. now apply (spells_alpha t w). Qed.

(* ---- matching words ---- *)
Lemma after_ci_spells t w r : spells t w -> after_ci w (t ++ r) = Some (t, r).
Proof. unfold spells. intros <-. induction t as [|c t IH]; cbn; auto. rewrite Ascii.eqb_refl. change (map lower_c t) with (lower t). now rewrite IH. Qed.
Lemma after_ci_some w : forall s t r, after_ci w s = Some (t, r) -> s = t ++ r /\ spells t w.
Proof.
  unfold spells. induction w as [|c w IH]; intros s t r; cbn; [intros [= <- <-]; auto|]. destruct s as [|d s]; [discriminate|].
  destruct (Ascii.eqb_spec (lower_c d) c) as [<-|]; [|discriminate]. destruct (after_ci w s) as [[a b]|] eqn:E; [|discriminate].
  intros [= <- <-]. apply IH in E as [-> <-]. auto.
Qed.
Fixpoint differ (w t : str) : bool :=
  match w, t with a :: w', b :: t' => if Ascii.eqb b a then differ w' t' else true | _, _ => false end.
Lemma after_ci_differ w : forall t r, differ w (lower t) = true -> after_ci w (t ++ r) = None.
Proof.
  induction w as [|c w IH]; intros t r; cbn; [discriminate|]. destruct t as [|d t]; [discriminate|]. cbn. fold (lower t).
  destruct (Ascii.eqb (lower_c d) c); auto. intros D. now rewrite IH.
Qed.
Ltac nomatch H := rewrite after_ci_differ by (unfold spells in H; rewrite H; vm_compute; reflexivity).
Lemma blank_head w r : blank w -> match r with x :: _ => is_space x = false | [] => True end -> blanks (w ++ r) = w /\ lstrip (w ++ r) = r.
Proof. apply (take_stop is_space). Qed.
Lemma intrinsic_ok t r : intrinsic_name t -> intrinsic_match (t ++ r) = Some (t, r).
Proof.
  unfold intrinsic_match. intros [H|[H|[H|[H|(d & w & p & -> & H & W & P)]]]].
  - now rewrite (after_ci_spells t (L "integer")).
  - nomatch H. now rewrite (after_ci_spells t (L "real")).
  - nomatch H. nomatch H. now rewrite (after_ci_spells t (L "logical")).
  - nomatch H. nomatch H. nomatch H. unfold dp_match. nomatch H. now rewrite (after_ci_spells t (L "complex")).
  - rewrite <- app_assoc. nomatch H. nomatch H. nomatch H. unfold dp_match. rewrite (after_ci_spells d _ _ H). rewrite <- app_assoc.
    assert (PS : solid p) by (apply (spells_solid p _ P); [easy|reflexivity]).
    destruct (blank_head w (p ++ r) W) as [-> ->]. { destruct PS as [(c & u & -> & C) _]. exact C. }
    now rewrite (after_ci_spells p _ _ P).
Qed.
Lemma intrinsic_solid t : intrinsic_name t -> solid t.
Proof.
  intros [H|[H|[H|[H|(d & w & p & -> & H & W & P)]]]]; try (apply (spells_solid t _ H); [easy|reflexivity]).
  apply solid_app; [apply (spells_solid d _ H)|apply (spells_solid p _ P)]; easy.
Qed.
Definition type_c (c : ascii) : bool := is_alpha c || is_space c.
Lemma alpha_type t : forallb is_alpha t = true -> forallb type_c t = true.
Proof. apply forallb_impl. unfold type_c. now intros c ->. Qed.
Lemma blank_type w : blank w -> forallb type_c w = true.
Proof. unfold blank. apply forallb_impl. unfold type_c. intros c ->. now rewrite orb_true_r. Qed.
Lemma intrinsic_chars t : intrinsic_name t -> forallb type_c t = true.
Proof.
  intros [H|[H|[H|[H|(d & w & p & -> & H & W & P)]]]]; try (apply alpha_type; now apply (spells_alpha t _ H)).
  rewrite !forallb_app. rewrite (blank_type w W). rewrite (alpha_type d), (alpha_type p); auto; [now apply (spells_alpha p _ P)|now apply (spells_alpha d _ H)].
Qed.

(* ---- cutting the line ---- *)
Lemma find_c_no c (a b : str) : ~ In c a -> find_c c (a ++ b) = match find_c c b with Some n => Some (length a + n) | None => None end.
Proof.
  induction a as [|d a IH]; cbn; intros N; [now destruct (find_c c b)|]. destruct (Ascii.eqb_spec d c) as [->|]; [exfalso; auto|].
  rewrite IH by auto. now destruct (find_c c b).
Qed.
Lemma find_c_none c (s : str) : ~ In c s -> find_c c s = None.
Proof. intros N. rewrite <- (app_nil_r s). now rewrite find_c_no. Qed.
Lemma close_body body : forall rest p, ~ In "("%char body -> ~ In ")"%char body ->
  close_pos (body ++ ")"%char :: rest) 1 p = p + length body + 1.
Proof.
  induction body as [|c body IH]; intros rest p A B.
  - cbn. destruct rest; cbn; lia.
  - cbn [app close_pos]. destruct (Ascii.eqb_spec c "("); [exfalso; subst; apply A; now left|]. destruct (Ascii.eqb_spec c ")"); [exfalso; subst; apply B; now left|].
    rewrite IH; [cbn; lia|intros I; apply A; now right|intros I; apply B; now right].
Qed.
(* a parenthesised group first *)
Lemma cut_group x body rest : ~ In "("%char x -> ~ In ","%char x -> ~ In "("%char body -> ~ In ")"%char body ->
  cut_line (x ++ L "(" ++ body ++ L ")" ++ rest) = x ++ L "(" ++ body ++ L ")" ++ firstn 1 rest.
Proof.
  intros A B C D. unfold cut_line. rewrite (find_c_no "(" x), (find_c_no "," x) by auto. cbn [L list_ascii_of_string app find_c Ascii.eqb Bool.eqb].
  assert (E : firstn (close_pos (skipn (length x + 0 + 1) (x ++ "("%char :: body ++ ")"%char :: rest)) 1 (length x + 0 + 1) + 1) (x ++ "("%char :: body ++ ")"%char :: rest)
            = x ++ "("%char :: body ++ ")"%char :: firstn 1 rest).
  { replace (length x + 0 + 1) with (length x + 1) by lia. rewrite skipn_app, skipn_all2 by lia. replace (length x + 1 - length x) with 1 by lia. cbn [app skipn].
    rewrite close_body by auto. replace (length x + 1 + length body + 1 + 1) with (length (x ++ "("%char :: body ++ [")"%char]) + 1) by (rewrite !app_length; cbn; rewrite app_length; cbn; lia).
    replace (x ++ "("%char :: body ++ ")"%char :: rest) with ((x ++ "("%char :: body ++ [")"%char]) ++ rest) by (rewrite <- app_assoc; cbn; now rewrite <- app_assoc).
    rewrite firstn_app_2. rewrite <- app_assoc. cbn. now rewrite <- app_assoc. }
  destruct (find_c "," (body ++ ")"%char :: rest)) as [n|].
  - destruct (Nat.ltb_spec (length x + S n) (length x + 0)); [lia|exact E].
  - exact E.
Qed.
(* no group: the comma, or something later, ends the type *)
Definition opener (c : ascii) : Prop := c = ","%char \/ c = ":"%char \/ is_alpha c = true.
Lemma cut_plain x c t : ~ In "("%char x -> ~ In ","%char x -> opener c ->
  (c = ","%char /\ cut_line (x ++ c :: t) = x) \/ exists t', cut_line (x ++ c :: t) = x ++ c :: t'.
Proof.
  intros A B O. unfold cut_line. rewrite (find_c_no "(" x), (find_c_no "," x) by auto. cbn [find_c].
  assert (P : Ascii.eqb c "(" = false) by (destruct O as [->|[->|H]]; [reflexivity|reflexivity|]; destruct (Ascii.eqb_spec c "("); auto; subst; discriminate).
  rewrite P. assert (F : forall k, firstn (length x + S k) (x ++ c :: t) = x ++ c :: firstn k t).
  { intros k. rewrite firstn_app, firstn_all2 by lia. replace (length x + S k - length x) with (S k) by lia. reflexivity. }
  assert (CP : forall s d p, p <= close_pos s d p). { clear. intros s. induction s as [|c s IH]; intros [|d] p; cbn; try lia. etransitivity; [|apply IH]. lia. }
  destruct (Ascii.eqb_spec c ",") as [->|N].
  - left. split; auto. assert (E : firstn (length x + 0) (x ++ ","%char :: t) = x) by (rewrite Nat.add_0_r, firstn_app, firstn_all, Nat.sub_diag; cbn; now rewrite app_nil_r).
    destruct (find_c "(" t); [|exact E]. destruct (Nat.ltb_spec (length x + 0) (length x + S n)); [exact E|lia].
  - right. destruct (find_c "(" t) as [p|], (find_c "," t) as [q|].
    + destruct (Nat.ltb (length x + S q) (length x + S p)); [rewrite F; eauto|].
      match goal with |- context [close_pos ?s 1 ?p + 1] => pose proof (CP s 1 p) as H; set (z := close_pos s 1 p) in * end.
      replace (z + 1) with (length x + S (z - length x)) by lia. rewrite F. eauto.
    + match goal with |- context [close_pos ?s 1 ?p + 1] => pose proof (CP s 1 p) as H; set (z := close_pos s 1 p) in * end.
      replace (z + 1) with (length x + S (z - length x)) by lia. rewrite F. eauto.
    + rewrite F. eauto.
    + eauto.
Qed.
