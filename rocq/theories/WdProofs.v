(* WdProofs.v: the text of declarations. *)
From Verif Require Import PyStr Base PhaseSpec CheckSpec CheckProofs LineSpec Regex CheckModel DictModel HdrModel CsModel CsProofs DeclSpec DeclProofs DeclBody WdModel WdSpec.
From Coq Require Import Lia.
Open Scope nat_scope.
Open Scope list_scope.

(* ---- characters ---- *)
Lemma spaces_blank n : blank (spaces n).
Proof. unfold blank, spaces. apply forallb_forall. intros c I. apply repeat_spec in I. now subst. Qed.
Lemma blank_ap a b : blank a -> blank b -> blank (a ++ b).
Proof. unfold blank. intros A B. now rewrite forallb_app, A, B. Qed.
Lemma not_in_app {A} (c : A) a b : ~ In c a -> ~ In c b -> ~ In c (a ++ b).
Proof. intros X Y H. apply in_app_iff in H as [H|H]; auto. Qed.
Lemma blank_free c w : is_space c = false -> blank w -> ~ In c w.
Proof. intros N B I. unfold blank in B. rewrite forallb_forall in B. apply B in I. congruence. Qed.
Lemma words_free c s : is_word c = false -> forallb is_word s = true -> ~ In c s.
Proof. intros N B I. rewrite forallb_forall in B. apply B in I. congruence. Qed.
Lemma digits_free c s : is_digit c = false -> forallb is_digit s = true -> ~ In c s.
Proof. intros N B I. rewrite forallb_forall in B. apply B in I. congruence. Qed.
Lemma spells_free c t w : lower_c c = c -> spells t w -> ~ In c w -> ~ In c t.
Proof. intros N S H I. apply H. red in S. rewrite <- S. change (In c (map lower_c t)). apply in_map_iff. exists c. auto. Qed.
Lemma ident_words n : identifier n -> forallb is_word n = true.
Proof. intros (c & t & -> & A & W). cbn. unfold is_word at 1. rewrite A. exact W. Qed.
Lemma fname_ident n : fortran_name n <-> identifier n.
Proof.
  split; intros (c & t & -> & A & B); exists c, t; split; auto; split; auto; [now apply forallb_forall|]. now apply forallb_forall.
Qed.
Lemma strip_nonblank s c : In c s -> is_space c = false -> str_eqb (strip s) [] = false.
Proof.
  intros I N. apply str_eqb_neq. intros E. destruct (strip_split s) as (w & v & W & V & Q). rewrite E in Q. cbn [app] in Q. subst s.
  now apply (blank_free c (w ++ v)) in I; [|auto|apply blank_ap].
Qed.
Lemma strip_spaces n : str_eqb (strip (spaces n)) [] = true.
Proof. rewrite strip_blank by apply spaces_blank. reflexivity. Qed.

(* ---- double colons ---- *)
Lemma within_colon s : ~ In ":"%char s -> ~ within (L "::") s.
Proof. intros N (a & b & ->). apply N, in_app_iff. right. now left. Qed.
Lemma within_cut a c b : c <> ":"%char -> ~ within (L "::") a -> ~ within (L "::") b -> ~ within (L "::") (a ++ c :: b).
Proof.
  intros C A B (x & y & E). revert a A E. induction x as [|z x IH]; intros a A E.
  - destruct a as [|p a]; cbn in E; [injection E as -> _; auto|]. destruct a as [|q a]; cbn in E; [injection E as -> -> _; auto|]. injection E as -> -> E. apply A. exists [], a. reflexivity.
  - destruct a as [|p a]; cbn in E.
    + injection E as -> E. apply B. exists x, y. exact E.
    + injection E as -> E. apply (IH a); [|exact E]. intros (u & v & ->). apply A. exists (z :: u), v. reflexivity.
Qed.
Lemma single_ok : ~ within (L "::") (L ":").
Proof. intros (x & y & E). assert (L1 : length (L ":") = length (x ++ L "::" ++ y)) by congruence. rewrite !app_length in L1. cbn in L1. lia. Qed.
Lemma colons_eq dims : dims <> [] -> colons dims = L "(" ++ join (L ",") (List.repeat (L ":") (length dims)) ++ L ")".
Proof.
  intros N. unfold colons. destruct dims as [|d dims]; [easy|]. cbn [length Nat.sub]. rewrite Nat.sub_0_r. clear N d.
  replace (L "(:" ++ List.concat (List.repeat (L ",:") (length dims)) ++ L ")") with (L "(" ++ (L ":" ++ List.concat (List.repeat (L ",:") (length dims))) ++ L ")") by reflexivity.
  do 2 f_equal. generalize (length dims) as n. induction n as [|n IH]; [reflexivity|].
  change (List.repeat (L ":") (S (S n))) with (L ":" :: List.repeat (L ":") (S n)). cbn [List.repeat join] in *. rewrite <- IH. reflexivity.
Qed.
Lemma join_colons n : let s := join (L ",") (List.repeat (L ":") (S n)) in ~ within (L "::") s /\ forall c, In c s -> c = ":"%char \/ c = ","%char.
Proof.
  cbn zeta. induction n as [|n [I1 I2]].
  - split; [apply single_ok|]. intros c [<-|[]]. now left.
  - change (join (L ",") (List.repeat (L ":") (S (S n)))) with (L ":" ++ ","%char :: join (L ",") (List.repeat (L ":") (S n))). split.
    + apply within_cut; [discriminate|apply single_ok|exact I1].
    + intros c [<-|[<-|I]]; auto.
Qed.
Lemma no_paren_sum s : ~ In "("%char s -> ~ In ")"%char s -> paren_sum s = 0%Z.
Proof.
  induction s as [|c s IH]; intros A B; [reflexivity|]. cbn [paren_sum]. rewrite IH by (intros X; first [now apply A; right|now apply B; right]).
  destruct (Ascii.eqb c "(") eqn:E1; [apply Ascii.eqb_eq in E1; subst; elim A; now left|]. destruct (Ascii.eqb c ")") eqn:E2; [apply Ascii.eqb_eq in E2; subst; elim B; now left|]. reflexivity.
Qed.
Lemma no_paren_balanced s : ~ In "("%char s -> ~ In ")"%char s -> balanced s.
Proof.
  intros A B. split; [now apply no_paren_sum|]. intros p q ->. rewrite no_paren_sum; [lia| |]; intros X; [apply A|apply B]; apply in_app_iff; now left.
Qed.

(* ---- the head ---- *)
Definition hd_text (w : wvar) : str :=
  if w_ddt w then (if w_polymorphic w then L "class" else L "type") ++ L "(" ++ w_kind w ++ L ")"
  else if negb (str_eqb (w_kind w) []) then w_type w ++ L "(" ++ w_kind w ++ L ")" else w_type w.
Lemma intrinsic_free c t : intrinsic_name t -> c = "!"%char \/ c = "("%char -> ~ In c t.
Proof.
  intros I C. assert (LC : lower_c c = c) by (destruct C as [->| ->]; reflexivity).
  destruct I as [I|[I|[I|[I|(d & w & p & -> & D & W & P)]]]].
  1-4: apply (spells_free c _ _ LC I); destruct C as [->| ->]; cbn; intuition discriminate.
  apply not_in_app; [|apply not_in_app].
  - apply (spells_free c _ _ LC D). destruct C as [->| ->]; cbn; intuition discriminate.
  - apply blank_free; auto. destruct C as [->| ->]; reflexivity.
  - apply (spells_free c _ _ LC P). destruct C as [->| ->]; cbn; intuition discriminate.
Qed.
Lemma head_text w T K : readable_type w T K -> head (hd_text w) T K (w_ddt w) /\ ~ In "!"%char (hd_text w).
Proof.
  intros H. unfold hd_text. destruct H as [D I E|D I E|le l D S1 S2 LV E|D I]; rewrite D.
  - rewrite E. cbn [negb str_eqb]. split; [now constructor|apply intrinsic_free; auto].
  - assert (N : str_eqb (w_kind w) [] = false) by (apply str_eqb_neq; now destruct E). rewrite N. cbn [negb]. split.
    + apply (h_kind (w_type w) [] [] (w_kind w) []); auto; reflexivity.
    + apply not_in_app; [now apply intrinsic_free; auto|]. destruct E as (_ & E & _). apply not_in_app; [cbn; intuition discriminate|]. apply not_in_app; [|cbn; intuition discriminate]. now apply words_free.
  - assert (N : str_eqb (w_kind w) [] = false) by (apply str_eqb_neq; rewrite E; destruct le; discriminate). rewrite N, E. cbn [negb]. split.
    + replace (w_type w ++ L "(" ++ (le ++ L "=" ++ l) ++ L ")") with (w_type w ++ [] ++ L "(" ++ [] ++ le ++ [] ++ L "=" ++ [] ++ l ++ [] ++ L ")") by (cbn [app]; now rewrite <- !app_assoc).
      apply h_len_eq; auto; reflexivity.
    + apply not_in_app; [apply (spells_free "!"%char _ _ eq_refl S1); cbn; intuition discriminate|]. apply not_in_app; [cbn; intuition discriminate|].
      apply not_in_app; [|cbn; intuition discriminate]. apply not_in_app; [apply (spells_free "!"%char _ _ eq_refl S2); cbn; intuition discriminate|].
      apply not_in_app; [cbn; intuition discriminate|]. destruct LV as [->|[->|[[_ LV]|[LV _]]]]; [cbn; intuition discriminate|cbn; intuition discriminate|now apply digits_free|]. apply words_free; auto. now apply ident_words.
  - split.
    + apply (h_derived (if w_polymorphic w then L "class" else L "type") [] [] (w_kind w) []); auto; [|reflexivity|reflexivity|reflexivity]. destruct (w_polymorphic w); [right|left]; reflexivity.
    + apply not_in_app; [destruct (w_polymorphic w); cbn; intuition discriminate|]. apply not_in_app; [cbn; intuition discriminate|]. apply not_in_app; [|cbn; intuition discriminate]. apply words_free; auto. now apply ident_words.
Qed.
Lemma head_class w T K : readable_type w T K -> polymorphic_type (hd_text w) -> w_ddt w = true /\ w_polymorphic w = true.
Proof.
  intros H (t & r & E & S1). assert (LL : firstn 5 (lower (hd_text w)) = L "class").
  { rewrite E, lower_app, firstn_app. red in S1. assert (LE : length t = 5) by (rewrite <- (lower_len t), S1; reflexivity). rewrite lower_len, LE. cbn [Nat.sub firstn]. rewrite app_nil_r, S1. reflexivity. }
  clear E S1 t r. assert (X : forall t s r, spells t (L s) -> 5 <= length (L s) -> firstn 5 (lower (t ++ r)) = firstn 5 (L s)).
  { intros t s r S1 LE. red in S1. rewrite lower_app, S1, firstn_app. replace (5 - length (L s)) with 0 by lia. cbn [firstn]. now rewrite app_nil_r. }
  assert (INT : forall t r, intrinsic_name t -> r = [] \/ (exists q, r = "("%char :: q) -> firstn 5 (lower (t ++ r)) <> L "class").
  { intros t r I R. destruct I as [I|[I|[I|[I|(d & w0 & p & -> & D & W & P)]]]].
    - rewrite (X _ _ r I) by (cbn; lia). discriminate.
    - red in I. rewrite lower_app, I. destruct R as [->|(q & ->)]; discriminate.
    - rewrite (X _ _ r I) by (cbn; lia). discriminate.
    - rewrite (X _ _ r I) by (cbn; lia). discriminate.
    - rewrite <- app_assoc, (X _ _ _ D) by (cbn; lia). discriminate. }
  unfold hd_text in LL. destruct H as [D I E|D I E|le l D S1 S2 LV E|D I]; rewrite D in LL.
  - rewrite E in LL. cbn [negb str_eqb] in LL. elim (INT (w_type w) [] I); [now left|]. now rewrite app_nil_r.
  - destruct (negb (str_eqb (w_kind w) [])).
    + elim (INT _ _ I (or_intror (ex_intro _ _ eq_refl)) LL).
    + elim (INT (w_type w) [] I); [now left|]. now rewrite app_nil_r.
  - destruct (negb (str_eqb (w_kind w) [])).
    + rewrite (X _ _ _ S1) in LL by (cbn; lia). discriminate.
    + rewrite <- (app_nil_r (w_type w)), (X _ _ _ S1) in LL by (cbn; lia). discriminate.
  - split; auto. destruct (w_polymorphic w); auto. cbn in LL. destruct (w_kind w); discriminate.
Qed.
Definition pad (w : wvar) (extra : Z) : Z :=
  let e := (extra - len (if w_target w then L ", target" else []))%Z in
  if w_ddt w then if w_polymorphic w then e + 12 - len (w_kind w) else e + 13 - len (w_kind w)
  else if negb (str_eqb (w_kind w) []) then e + 17 - len (w_type w) - len (w_kind w) else (e + 19 - len (w_type w)).
Lemma definition_eq w extra ist name d : definition w extra ist name d =
  hd_text w ++ (if w_target w then L ", target" else []) ++ (if str_eqb (strip ist) [] then L " " else L ",") ++ spaces (pad w extra) ++ ist ++ L " :: " ++ name ++ d.
Proof.
  unfold definition, hd_text, pad. destruct (w_ddt w); [destruct (w_polymorphic w)|destruct (negb _)]; cbn [app]; rewrite <- !app_assoc; reflexivity.
Qed.

(* ---- a declaration from its parts ---- *)
Definition plain_attr (a : attr) : Prop :=
  attr_ok a /\ (forall c, In c (attr_text a) -> c <> ":"%char /\ c <> "!"%char) /\ (named "intent" a = false -> a_arg a = None).
Lemma attrs_chars al : Forall plain_attr al -> forall c, In c (attrs_text al) -> c <> ":"%char /\ c <> "!"%char.
Proof.
  unfold attrs_text. induction 1 as [|a al (_ & P & _) F IH]; cbn [map List.concat]; intros c I; [destruct I|]. apply in_app_iff in I as [[<-|I]|I]; auto; split; discriminate.
Qed.
Definition dims_fine (d : option str) : Prop :=
  forall x, d = Some x -> balanced x /\ (forall c, In c x -> c <> "="%char /\ c <> "'"%char /\ c <> """"%char /\ c <> "!"%char) /\ ~ within (L "::") x.
Definition init_fine (i : option str) : Prop :=
  forall x, i = Some x -> one_item x /\ ~ In "="%char x /\ ~ In "!"%char x /\ ~ In ":"%char x.
Lemma ident_free n c : identifier n -> is_word c = false -> ~ In c n.
Proof. intros I C. apply words_free; auto. now apply ident_words. Qed.
Lemma make_declaration h T K ddt w1 al n d aft i : head h T K ddt -> ~ In "!"%char h -> blank w1 -> Forall plain_attr al -> identifier n -> dims_fine d -> blank aft -> init_fine i ->
  declaration h al [mkEnt [] n [] d aft i]
    (h ++ w1 ++ attrs_text al ++ L ":: " ++ n ++ match d with Some x => L "(" ++ x ++ L ")" | None => [] end ++ aft ++ match i with Some x => L "=" ++ x | None => [] end).
Proof.
  intros H NB W1 AL N D AF IN.
  assert (ET : ent_text (mkEnt [] n [] d aft i) = n ++ (match d with Some x => L "(" ++ x ++ L ")" | None => [] end) ++ aft ++ match i with Some x => L "=" ++ x | None => [] end).
  { unfold ent_text. cbn [e_before e_name e_gap e_dims e_after e_init app]. destruct d; reflexivity. }
  assert (EW : ~ In "!"%char (ent_text (mkEnt [] n [] d aft i)) /\ ~ within (L "::") (ent_text (mkEnt [] n [] d aft i))).
  { rewrite ET. split.
    - apply not_in_app; [now apply ident_free|]. apply not_in_app; [|apply not_in_app].
      + destruct d as [x|]; [|easy]. destruct (D x eq_refl) as (_ & C & _). apply not_in_app; [cbn; intuition discriminate|]. apply not_in_app; [|cbn; intuition discriminate]. intros I. apply C in I. tauto.
      + now apply blank_free.
      + destruct i as [x|]; [|easy]. destruct (IN x eq_refl) as (_ & _ & C & _). apply not_in_app; [cbn; intuition discriminate|auto].
    - assert (TL : ~ within (L "::") (aft ++ match i with Some x => L "=" ++ x | None => [] end)).
      { apply within_colon, not_in_app; [now apply blank_free|]. destruct i as [x|]; [|easy]. destruct (IN x eq_refl) as (_ & _ & _ & C). apply not_in_app; [cbn; intuition discriminate|auto]. }
      assert (NN : ~ within (L "::") n) by (apply within_colon; now apply ident_free).
      destruct d as [x|].
      + destruct (D x eq_refl) as (_ & _ & DW). set (tl := aft ++ match i with Some y => L "=" ++ y | None => [] end) in *.
        replace (n ++ (L "(" ++ x ++ L ")") ++ tl) with (n ++ "("%char :: (x ++ ")"%char :: tl)) by (change (L "(" ++ x ++ L ")") with ("("%char :: (x ++ [")"%char])); cbn [app]; rewrite <- app_assoc; reflexivity).
        apply within_cut; [discriminate|exact NN|]. apply within_cut; [discriminate|exact DW|exact TL].
      + cbn [app]. destruct aft as [|c aft].
        * cbn [app]. destruct i as [y|]; [|now rewrite app_nil_r]. change (n ++ L "=" ++ y) with (n ++ "="%char :: y). apply within_cut; [discriminate|exact NN|]. destruct (IN y eq_refl) as (_ & _ & _ & C). now apply within_colon.
        * cbn [app]. apply within_cut; [|exact NN|].
          -- intros ->. red in AF. cbn in AF. discriminate.
          -- intros X. apply TL. destruct X as (u & v & X). exists (c :: u), v. cbn [app]. now rewrite X. }
  exists [], w1, (L " "), [], (L "::"), []. rewrite <- ET. unfold ents_text. cbn [map join].
  split; [cbn [app]; rewrite !app_nil_r; reflexivity|]. split; [reflexivity|]. split; auto. split; [reflexivity|]. split; [reflexivity|]. split; [now left|]. split; [now left|].
  split; [intros a I; rewrite Forall_forall in AL; apply AL; auto|]. split.
  { intros e [<-|[]]. split; [reflexivity|]. split; [reflexivity|]. split; auto. split; auto. cbn [e_dims e_init]. split.
    - intros x ->. destruct (D x eq_refl) as (B & C & _). split; auto. split; [|split]; intros I; apply C in I; tauto.
    - intros x ->. destruct (IN x eq_refl) as (B & C & _). auto. }
  assert (AC := attrs_chars al AL). destruct EW as [EW1 EW2]. split.
  { apply not_in_app; auto. apply not_in_app; auto. intros I. apply AC in I. tauto. }
  split; auto. apply within_colon. intros I. apply AC in I. tauto.
Qed.
Lemma open_fine n : dims_fine (open_shape n).
Proof.
  intros x E. destruct n as [|n]; [discriminate|]. injection E as <-. destruct (join_colons n) as [A B]. split; [|split; auto].
  - apply no_paren_balanced; intros I; apply B in I as [I|I]; discriminate.
  - intros c I. apply B in I as [->| ->]; repeat split; discriminate.
Qed.
Lemma shape_text dims : match open_shape (length dims) with Some x => L "(" ++ x ++ L ")" | None => [] end = match dims with [] => [] | _ => colons dims end.
Proof. destruct dims as [|d dims]; [reflexivity|]. rewrite colons_eq by easy. reflexivity. Qed.
Lemma object_base v n : object_name v n -> base_name v = n /\ identifier n.
Proof.
  unfold base_name. intros [[N ->]|(subs & A)].
  - rewrite ref_parts_none by (apply fname_no_paren; auto). split; auto. now apply fname_ident.
  - rewrite (ref_parts_some _ _ _ A). split; auto. destruct A as (N & _). now apply fname_ident.
Qed.
