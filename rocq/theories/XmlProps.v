(* XmlProps.v: C101-C102, the datatable file written by PrettyElementTree. *)
From Coq Require Import Lia.
From Verif Require Import PyStr Regex XmlModel XmlSpec XmlProofs CheckProofs.
Open Scope nat_scope.
Open Scope list_scope.

(* ---- white space ---- *)
Lemma drop_flat (f : ascii -> str) (s : str) :
  (forall c, is_space c = true -> f c = [c]) ->
  (forall c, is_space c = false -> exists a t, f c = a :: t /\ is_space a = false) ->
  dropwhile is_space (flat_map f s) = flat_map f (dropwhile is_space s).
Proof.
  intros A B. induction s as [|c s IH]; auto. cbn [flat_map dropwhile]. destruct (is_space c) eqn:E.
  - rewrite (A c E). cbn [app dropwhile]. now rewrite E.
  - destruct (B c E) as (a & t & F & N). cbn [flat_map]. rewrite F. cbn [app dropwhile]. now rewrite N.
Qed.
Lemma rev_flat (f : ascii -> str) (s : str) : rev (flat_map f s) = flat_map (fun c => rev (f c)) (rev s).
Proof.
  induction s as [|c s IH]; auto. cbn [flat_map rev]. rewrite rev_app_distr, IH, flat_map_app. cbn. now rewrite app_nil_r.
Qed.
Lemma esc_space c : is_space c = true -> esc_text_c c = [c].
Proof.
  intros H. unfold esc_text_c. destruct (Ascii.eqb_spec c "&") as [->|_]; [discriminate|].
  destruct (Ascii.eqb_spec c "<") as [->|_]; [discriminate|]. destruct (Ascii.eqb_spec c ">") as [->|_]; [discriminate|]. reflexivity.
Qed.
Lemma esc_strip (s : str) : strip (flat_map esc_text_c s) = flat_map esc_text_c (strip s).
Proof.
  unfold strip, lstrip, rstrip. rewrite drop_flat.
  - rewrite rev_flat, drop_flat.
    + rewrite rev_flat. apply flat_map_ext. intros c. apply rev_involutive.
    + intros c H. now rewrite (esc_space c H).
    + intros c H. unfold esc_text_c. destruct (Ascii.eqb c "&"); [exists ";"%char; eexists; split; reflexivity|].
      destruct (Ascii.eqb c "<"); [exists ";"%char; eexists; split; reflexivity|].
      destruct (Ascii.eqb c ">"); [exists ";"%char; eexists; split; reflexivity|].
      exists c, []. auto.
  - apply esc_space.
  - intros c H. unfold esc_text_c. destruct (Ascii.eqb c "&"); [exists "&"%char; eexists; split; reflexivity|].
    destruct (Ascii.eqb c "<"); [exists "&"%char; eexists; split; reflexivity|].
    destruct (Ascii.eqb c ">"); [exists "&"%char; eexists; split; reflexivity|].
    exists c, []. auto.
Qed.
Definition blank (s : str) : Prop := forall c, In c s -> is_space c = true /\ xml_char c.
Lemma drop_blank (b s : str) : (forall c, In c b -> is_space c = true) -> dropwhile is_space (b ++ s) = dropwhile is_space s.
Proof. induction b as [|c b IH]; intros H; auto. cbn. rewrite (H c) by now left. apply IH. intros d I. apply H. now right. Qed.
Lemma strip_blank_r (s b : str) : blank b -> strip (s ++ b) = strip s.
Proof.
  intros B. unfold strip, rstrip, lstrip. destruct (dropwhile is_space s) as [|c t] eqn:E.
  - assert (X : dropwhile is_space (s ++ b) = []).
    { assert (S : forall c, In c s -> is_space c = true).
      { clear -E. induction s as [|c s IH]; [intros d []|]; intros d [->|I]; cbn in E.
        - destruct (is_space d); [auto|discriminate].
        - destruct (is_space c); [auto|discriminate]. }
      rewrite drop_blank; auto. rewrite <- (app_nil_r b), drop_blank; auto. intros c I. now apply B. }
    now rewrite X.
  - assert (X : dropwhile is_space (s ++ b) = (c :: t) ++ b).
    { rewrite <- E. clear -E. induction s as [|a s IH]; cbn in *; [discriminate|]. destruct (is_space a); auto. }
    rewrite X, rev_app_distr, drop_blank; auto. intros d I. apply in_rev in I. now apply B.
Qed.
Lemma strip_blank (b : str) : blank b -> strip b = [].
Proof. intros B. change b with ([] ++ b). now rewrite strip_blank_r. Qed.
Lemma ind_blank n : blank (ind n).
Proof.
  intros c I. unfold ind in I. induction n as [|n IH]; cbn in I; [destruct I|].
  destruct I as [<-|[<-|I]]; auto; split; try reflexivity; left; vm_compute; lia.
Qed.
Lemma nl_blank : blank [nl].
Proof. intros c [<-|[]]. split; [reflexivity|]. right. now left. Qed.
Lemma blank_app a b : blank a -> blank b -> blank (a ++ b).
Proof. intros A B c I. apply in_app_or in I as [I|I]; auto. Qed.

(* ---- reading ---- *)
Lemma rc_app p a x b y : reads_chars p a x -> reads_chars p b y -> reads_chars p (a ++ b) (x ++ y).
Proof.
  induction 1 as [|c e d P _ IH|n c e d N _ IH]; intros B; cbn [app]; auto.
  - constructor; auto.
  - rewrite <- app_assoc. apply rc_ent; auto.
Qed.
Lemma space_plain c : is_space c = true -> xml_char c -> plain_text c.
Proof. intros S X. split; auto. repeat split; intros ->; discriminate. Qed.
Lemma rc_blank b : blank b -> reads_chars plain_text b b.
Proof.
  intros B. induction b as [|c b IH]; constructor.
  - destruct (B c) as [S X]; [now left|]. now apply space_plain.
  - apply IH. intros d I. apply B. now right.
Qed.
Lemma rc_text s : (forall c, In c s -> xml_char c) -> reads_chars plain_text (flat_map esc_text_c s) s.
Proof.
  intros H. induction s as [|c s IH]; [constructor|]. cbn [flat_map].
  assert (T : reads_chars plain_text (flat_map esc_text_c s) s) by (apply IH; intros d I; apply H; now right).
  unfold esc_text_c at 1.
  destruct (Ascii.eqb_spec c "&") as [->|N1]; [apply rc_ent; auto; unfold entity; cbn [In]; tauto|].
  destruct (Ascii.eqb_spec c "<") as [->|N2]; [apply rc_ent; auto; unfold entity; cbn [In]; tauto|].
  destruct (Ascii.eqb_spec c ">") as [->|N3]; [apply rc_ent; auto; unfold entity; cbn [In]; tauto|].
  constructor; auto. split; auto. apply H. now left.
Qed.
Lemma rc_attr s : (forall c, In c s -> xml_char c \/ c = cr) -> reads_chars plain_attr (flat_map esc_attr_c s) s.
Proof.
  intros H. induction s as [|c s IH]; [constructor|]. cbn [flat_map].
  assert (T : reads_chars plain_attr (flat_map esc_attr_c s) s) by (apply IH; intros d I; apply H; now right).
  unfold esc_attr_c at 1.
  destruct (Ascii.eqb_spec c "&") as [->|N1]; [apply rc_ent; auto; unfold entity; cbn [In]; tauto|].
  destruct (Ascii.eqb_spec c "<") as [->|N2]; [apply rc_ent; auto; unfold entity; cbn [In]; tauto|].
  destruct (Ascii.eqb_spec c ">") as [->|N3]; [apply rc_ent; auto; unfold entity; cbn [In]; tauto|].
  destruct (Ascii.eqb_spec c dquote) as [->|N4]; [apply rc_ent; auto; unfold entity; cbn [In]; tauto|].
  destruct (Ascii.eqb_spec c nl) as [->|N5]; [apply rc_ent; auto; unfold entity; cbn [In]; tauto|].
  destruct (Ascii.eqb_spec c cr) as [->|N6]; [apply rc_ent; auto; unfold entity; cbn [In]; tauto|].
  destruct (Ascii.eqb_spec c tab) as [->|N7]; [apply rc_ent; auto; unfold entity; cbn [In]; tauto|].
  constructor; auto. unfold plain_attr. repeat split; auto. destruct (H c) as [[|[|]]|]; auto; try contradiction. now left.
Qed.
Lemma ra_attrs attrs : (forall k v, In (k, v) attrs -> xml_name k /\ (forall c, In c v -> xml_char c \/ c = cr)) ->
  reads_attrs (flat_map attr_text attrs) attrs.
Proof.
  induction attrs as [|[k v] l IH]; intros H; [constructor|]. cbn [flat_map].
  replace (attr_text (k, v) ++ flat_map attr_text l)
    with (L " " ++ k ++ L "=" ++ [dquote] ++ flat_map esc_attr_c v ++ [dquote] ++ flat_map attr_text l).
  - destruct (H k v) as [A B]; [now left|]. constructor; auto; [now apply rc_attr|]. apply IH. intros k' v' I. apply H. now right.
  - unfold attr_text. cbn [fst snd]. cbn. rewrite <- !app_assoc. cbn. now rewrite <- !app_assoc.
Qed.
Lemma strip_chars (s : str) c : In c (strip s) -> In c s.
Proof.
  unfold strip, rstrip, lstrip. intros I. apply in_rev in I.
  assert (D : forall l : str, In c (dropwhile is_space l) -> In c l).
  { clear. induction l as [|a l IH]; cbn; auto. destruct (is_space a); auto. }
  apply D in I. apply in_rev in I. now apply D.
Qed.

Lemma render_reads e : xml_tree e -> forall i, exists x t, render i e = ind i ++ x ++ [nl] /\ reads x t /\ kept e t.
Proof.
  induction e as [tag attrs text kids IH] using elem_ind'. intros W i.
  apply xml_tree_inv in W as [(Wt & Wa & Wx) Wk].
  assert (D : (text = [] /\ kids = []) \/ (text <> [] \/ kids <> [])).
  { destruct text; [destruct kids; [left; auto|right; right; discriminate]|right; left; discriminate]. }
  destruct D as [[-> ->]|D].
  - exists (L "<" ++ tag ++ flat_map attr_text attrs ++ L " />"), (Node tag attrs [] []). split.
    + cbn [render]. unfold head_text. rewrite <- !app_assoc. reflexivity.
    + split; [constructor; auto; now apply ra_attrs|]. constructor; auto. constructor.
  - (* the children *)
    assert (K : forall ks z, Forall (fun e => xml_tree e -> forall i, exists x t, render i e = ind i ++ x ++ [nl] /\ reads x t /\ kept e t) ks ->
                Forall xml_tree ks -> blank z -> ks <> [] ->
                exists s ts, flat_map (render (S i)) ks ++ z = ind (S i) ++ s /\ reads_kids s ts /\ kept_list ks ts).
    { clear. induction ks as [|k ks IHk]; intros z F W Z N; [now destruct N|].
      inversion F as [|? ? F1 F2]; inversion W as [|? ? W1 W2]; subst.
      destruct (F1 W1 (S i)) as (x & t & E & R & Q). destruct ks as [|k2 ks].
      - exists (x ++ ([nl] ++ z) ++ []), [(t, [nl] ++ z)]. split; [|split].
        + cbn [flat_map]. rewrite E, !app_nil_r, <- !app_assoc. reflexivity.
        + constructor; auto; [|constructor]. apply rc_blank, blank_app; auto. apply nl_blank.
        + constructor; auto; [|constructor]. apply strip_blank, blank_app; auto. apply nl_blank.
      - destruct (IHk z) as (s & ts & E2 & R2 & Q2); auto; [discriminate|].
        exists (x ++ ([nl] ++ ind (S i)) ++ s), ((t, [nl] ++ ind (S i)) :: ts). split; [|split].
        + cbn [flat_map] in *. rewrite E, <- !app_assoc in *. rewrite E2. reflexivity.
        + constructor; auto. apply rc_blank, blank_app; [apply nl_blank|apply ind_blank].
        + constructor; auto. apply strip_blank, blank_app; [apply nl_blank|apply ind_blank]. }
    assert (Rs : reads_chars plain_text (strip (flat_map esc_text_c text)) (strip text)).
    { rewrite esc_strip. apply rc_text. intros c I. now apply Wx, strip_chars. }
    destruct kids as [|k ks].
    + destruct text as [|c0 tx]; [destruct D as [[]|[]]; reflexivity|].
      exists (L "<" ++ tag ++ flat_map attr_text attrs ++ L ">" ++ strip (flat_map esc_text_c (c0 :: tx)) ++ [] ++ L "</" ++ tag ++ L ">"),
             (Node tag attrs (strip (c0 :: tx)) []).
      split; [|split].
      * unfold render. unfold head_text. rewrite <- !app_assoc. cbn [flat_map]. reflexivity.
      * constructor; auto; [now apply ra_attrs|constructor].
      * constructor; auto; [|constructor]. apply strip_idem.
    + destruct (K (k :: ks) (ind i)) as (s & ts & E & R & Q); auto; [apply ind_blank|discriminate|]. clear K.
      set (t0 := match text with [] => [nl] | _ => strip (flat_map esc_text_c text) end).
      set (d0 := match text with [] => [nl] | _ => strip text end).
      exists (L "<" ++ tag ++ flat_map attr_text attrs ++ L ">" ++ (t0 ++ ind (S i)) ++ s ++ L "</" ++ tag ++ L ">"),
             (Node tag attrs (d0 ++ ind (S i)) ts).
      split; [|split].
      * assert (X : render i (Elem tag attrs text (k :: ks)) = ind i ++ L "<" ++ head_text tag attrs ++ L ">" ++ t0 ++ (flat_map (render (S i)) (k :: ks) ++ ind i) ++ L "</" ++ tag ++ L ">" ++ [nl]).
        { unfold t0. destruct text; cbn [render]; rewrite <- !app_assoc; reflexivity. }
        rewrite X, E. unfold head_text. rewrite <- !app_assoc. reflexivity.
      * constructor; auto; [now apply ra_attrs|]. apply rc_app; [|apply rc_blank, ind_blank].
        unfold t0, d0. destruct text; auto. apply rc_blank, nl_blank.
      * constructor; auto; [|discriminate]. rewrite strip_blank_r by apply ind_blank. unfold d0. destruct text; [reflexivity|apply strip_idem].
Qed.

Lemma strip_ends (a b : ascii) (s : str) : is_space a = false -> is_space b = false -> strip (a :: s ++ [b]) = a :: s ++ [b].
Proof.
  intros A B. unfold strip, rstrip, lstrip. cbn [dropwhile]. rewrite A. change (a :: s ++ [b]) with ((a :: s) ++ [b]). rewrite rev_unit. cbn [dropwhile]. rewrite B.
  change (b :: rev (a :: s)) with ([b] ++ rev (a :: s)). rewrite rev_app_distr, rev_involutive. reflexivity.
Qed.
Lemma tostring_ends e : exists s, tostring e = "<"%char :: s ++ [">"%char].
Proof.
  destruct e as [tag attrs text kids]. cbn [tostring].
  assert (X : forall z, exists s, "<"%char :: head_text tag attrs ++ z ++ L ">" = "<"%char :: s ++ [">"%char]).
  { intros z. exists (head_text tag attrs ++ z). now rewrite <- app_assoc. }
  destruct text as [|c t], kids as [|k ks].
  - apply (X (L " /")).
  - destruct (X (">"%char :: flat_map esc_text_c [] ++ flat_map tostring (k :: ks) ++ L "</" ++ tag)) as [s E]. exists s. rewrite <- E. cbn. rewrite <- !app_assoc. cbn. rewrite <- ?app_assoc. reflexivity.
  - destruct (X (">"%char :: flat_map esc_text_c (c :: t) ++ flat_map tostring [] ++ L "</" ++ tag)) as [s E]. exists s. rewrite <- E. cbn. rewrite <- !app_assoc. cbn. rewrite <- ?app_assoc. reflexivity.
  - destruct (X (">"%char :: flat_map esc_text_c (c :: t) ++ flat_map tostring (k :: ks) ++ L "</" ++ tag)) as [s E]. exists s. rewrite <- E. cbn. rewrite <- !app_assoc. cbn. rewrite <- ?app_assoc. reflexivity.
Qed.
Lemma write_eq e : xml_tree e -> write e = if good e then Ok (render 0 e) else Raise "XMLToolsInternalError"%string.
Proof.
  intros W. unfold write. destruct (tostring_ends e) as [s E]. rewrite E, strip_ends; auto. rewrite <- E.
  change (pretty (length (tostring e)) (tostring e) 0 false) with (P (tostring e) 0 false).
  rewrite <- (app_nil_r (tostring e)). rewrite pretty_tree; auto; [|discriminate].
  destruct (good e); auto. unfold pre, bind, P. cbn. now rewrite app_nil_r.
Qed.

(* ---- a text is read in one way only ---- *)
Lemma entity_amp n c : entity n c -> exists t, n = "&"%char :: t.
Proof. unfold entity. cbn [In]. intros H. repeat (destruct H as [H|H]; [injection H as <- <-; eexists; reflexivity|]). destruct H. Qed.
Lemma entity_det n c n' c' (e e' : str) : entity n c -> entity n' c' -> n ++ e = n' ++ e' -> n = n' /\ c = c' /\ e = e'.
Proof.
  unfold entity. cbn [In]. intros H H' E.
  repeat (destruct H as [H|H]; [injection H as <- <-;
    repeat (destruct H' as [H'|H']; [injection H' as <- <-; cbn in E; try discriminate E; injection E as E; auto|]); destruct H'|]).
  destruct H.
Qed.
Lemma rc_det (p : ascii -> Prop) e d : ~ p "&"%char -> reads_chars p e d -> forall e' d' x x' (u u' : str),
  reads_chars p e' d' -> ~ p x -> ~ p x' -> x <> "&"%char -> x' <> "&"%char ->
  e ++ x :: u = e' ++ x' :: u' -> e = e' /\ d = d' /\ x :: u = x' :: u'.
Proof.
  intros A. induction 1 as [|c e d P _ IH|n c e d N _ IH]; intros e' d' x x' u u' R' X X' Y Y' E.
  - inversion R' as [|c' e2 d2 P' R2|n' c' e2 d2 N' R2]; subst; auto.
    + cbn in E. injection E as -> _. contradiction.
    + destruct (entity_amp _ _ N') as [t ->]. cbn in E. injection E as -> _. congruence.
  - inversion R' as [|c' e2 d2 P' R2|n' c' e2 d2 N' R2]; subst.
    + cbn in E. injection E as -> _. contradiction.
    + cbn in E. injection E as <- E. destruct (IH _ _ _ _ _ _ R2 X X' Y Y' E) as (-> & -> & ->). auto.
    + destruct (entity_amp _ _ N') as [t ->]. cbn in E. injection E as -> _. contradiction.
  - inversion R' as [|c' e2 d2 P' R2|n' c' e2 d2 N' R2]; subst.
    + destruct (entity_amp _ _ N) as [t ->]. cbn in E. injection E as <- _. congruence.
    + destruct (entity_amp _ _ N) as [t ->]. cbn in E. injection E as <- _. contradiction.
    + rewrite <- !app_assoc in E. destruct (entity_det _ _ _ _ _ _ N N' E) as (-> & -> & E').
      destruct (IH _ _ _ _ _ _ R2 X X' Y Y' E') as (-> & -> & ->). auto.
Qed.
Lemma name_det (s s' u u' : str) c c' : (forall x, In x s -> is_word x = true) -> (forall x, In x s' -> is_word x = true) ->
  is_word c = false -> is_word c' = false -> s ++ c :: u = s' ++ c' :: u' -> s = s' /\ c = c' /\ u = u'.
Proof.
  revert s'. induction s as [|a s IH]; intros [|a' s'] A A' C C' E; cbn in E.
  - injection E as -> ->. auto.
  - injection E as -> _. rewrite A' in C by now left. discriminate.
  - injection E as -> _. rewrite A in C' by now left. discriminate.
  - injection E as -> E. destruct (IH s') as (-> & -> & ->); auto; intros x I; [apply A|apply A']; now right.
Qed.
(* what follows the attributes *)
Definition stops (r : str) : Prop := (exists u, r = ">"%char :: u) \/ (exists u, r = " "%char :: "/"%char :: u).
Lemma dq_np : ~ plain_attr dquote. Proof. intros (_ & _ & _ & _ & H). now apply H. Qed.
Lemma amp_np1 : ~ plain_attr "&"%char. Proof. intros (_ & H & _). now apply H. Qed.
Lemma amp_np2 : ~ plain_text "&"%char. Proof. intros (_ & H & _). now apply H. Qed.
Lemma lt_np : ~ plain_text "<"%char. Proof. intros (_ & _ & H & _). now apply H. Qed.
Lemma name_first k : xml_name k -> exists c t, k = c :: t /\ is_word c = true.
Proof. intros [N W]. destruct k as [|c t]; [now destruct N|]. exists c, t. split; auto. apply W. now left. Qed.
Lemma ra_det a l : reads_attrs a l -> forall a' l' r r', reads_attrs a' l' -> stops r -> stops r' ->
  a ++ r = a' ++ r' -> a = a' /\ l = l' /\ r = r'.
Proof.
  induction 1 as [|k e v s l K R _ IH]; intros a' l' r r' R' S S' E.
  - inversion R' as [|k' e' v' s' l2 K' R2 R3]; subst; auto. exfalso.
    destruct (name_first _ K') as (c & t & -> & C). cbn in E. destruct S as [[u ->]|[u ->]]; [discriminate|].
    injection E as <- _. discriminate.
  - inversion R' as [|k' e' v' s' l2 K' R2 R3]; subst.
    + exfalso. destruct (name_first _ K) as (c & t & -> & C). cbn in E. destruct S' as [[u ->]|[u ->]]; [discriminate|].
      injection E as -> _. discriminate.
    + cbn in E. injection E as E. rewrite <- !app_assoc in E. cbn in E.
      destruct (name_det k k' _ _ "="%char "="%char (proj2 K) (proj2 K') eq_refl eq_refl E) as (-> & _ & E1).
      injection E1 as E1. rewrite <- !app_assoc in E1. cbn in E1.
      assert (Dq : dquote <> "&"%char) by discriminate.
      destruct (rc_det _ _ _ amp_np1 R _ _ _ _ _ _ R2 dq_np dq_np Dq Dq E1) as (-> & -> & E2).
      injection E2 as E2. destruct (IH _ _ _ _ R3 S S' E2) as (-> & -> & ->). auto.
Qed.
Lemma st1 u : stops (L ">" ++ u). Proof. left. eexists. reflexivity. Qed.
Lemma st2 u : stops (L " />" ++ u). Proof. right. eexists. reflexivity. Qed.
Scheme reads_mut := Induction for reads Sort Prop with reads_kids_mut := Induction for reads_kids Sort Prop.
Lemma reads_start s t : reads s t -> exists c u, s = "<"%char :: c :: u /\ is_word c = true.
Proof.
  intros H. inversion H as [tag a attrs N R|tag a attrs tx text s0 kids N R Rc Rk]; subst;
    destruct (name_first _ N) as (c & u & -> & C); exists c; eexists; split; try reflexivity; auto.
Qed.
Lemma kids_start s ks : reads_kids s ks -> forall t, exists u, s ++ L "</" ++ t = "<"%char :: u.
Proof.
  intros H t. inversion H as [|s1 k tx text s0 ks0 R Rc Rk]; subst.
  - eexists. reflexivity.
  - destruct (reads_start _ _ R) as (c & u & -> & _). eexists. reflexivity.
Qed.
Lemma reads_det s t : reads s t -> forall s' t' (u u' : str), reads s' t' -> s ++ u = s' ++ u' -> s = s' /\ t = t'.
Proof.
  assert (LA : "<"%char <> "&"%char) by discriminate.
  intros H. induction H as [tag a attrs N R|tag a attrs tx text s kids N R Rc Rk IHk| |s1 k tx text s ks R IHr Rc Rk IHk]
    using reads_mut with
    (P0 := fun s ks _ => forall s' ks' (u u' : str), reads_kids s' ks' -> s ++ L "</" ++ u = s' ++ L "</" ++ u' -> s = s' /\ ks = ks' /\ u = u').
  - intros s' t' u u' H' E. inversion H' as [tag' a' attrs' N' R'|tag' a' attrs' tx' text' s0' kids' N' R' Rc' Rk']; subst; rewrite <- !app_assoc in E; apply (app_inv_head (L "<")) in E.
    + assert (X : exists b, a ++ L " />" ++ u = " "%char :: b) by (inversion R; subst; eexists; reflexivity).
      assert (X' : exists b, a' ++ L " />" ++ u' = " "%char :: b) by (inversion R'; subst; eexists; reflexivity).
      destruct X as [b X], X' as [b' X']. rewrite X, X' in E. destruct (name_det tag tag' _ _ " "%char " "%char (proj2 N) (proj2 N') eq_refl eq_refl E) as (-> & _ & <-).
      rewrite <- X' in X. destruct (ra_det _ _ R _ _ _ _ R' (st2 _) (st2 _) X) as (-> & -> & _). auto.
    + exfalso. assert (X : exists b, a ++ L " />" ++ u = " "%char :: b) by (inversion R; subst; eexists; reflexivity).
      assert (X' : exists c b, a' ++ L ">" ++ (tx' ++ s0' ++ L "</" ++ tag' ++ L ">") ++ u' = c :: b /\ is_word c = false) by (inversion R'; subst; eexists _, _; split; reflexivity).
      destruct X as [b X], X' as (c' & b' & X' & C'). rewrite <- !app_assoc in X'. rewrite X, X' in E. destruct (name_det tag tag' _ _ " "%char _ (proj2 N) (proj2 N') eq_refl C' E) as (-> & <- & <-).
      rewrite <- X' in X. destruct (ra_det _ _ R _ _ _ _ R' (st2 _) (st1 _) X) as (_ & _ & X2). discriminate.
  - intros s' t' u u' H' E. inversion H' as [tag' a' attrs' N' R'|tag' a' attrs' tx' text' s0' kids' N' R' Rc' Rk']; subst; rewrite <- !app_assoc in E; apply (app_inv_head (L "<")) in E.
    + exfalso. assert (X' : exists b, a' ++ L " />" ++ u' = " "%char :: b) by (inversion R'; subst; eexists; reflexivity).
      assert (X : exists c b, a ++ L ">" ++ (tx ++ s ++ L "</" ++ tag ++ L ">") ++ u = c :: b /\ is_word c = false) by (inversion R; subst; eexists _, _; split; reflexivity).
      destruct X' as [b' X'], X as (c & b & X & C). rewrite <- !app_assoc in X. rewrite X, X' in E. destruct (name_det tag tag' _ _ _ " "%char (proj2 N) (proj2 N') C eq_refl E) as (-> & -> & ->).
      rewrite <- X in X'. destruct (ra_det _ _ R' _ _ _ _ R (st2 _) (st1 _) X') as (_ & _ & X2). discriminate.
    + assert (X : exists c b, a ++ L ">" ++ (tx ++ s ++ L "</" ++ tag ++ L ">") ++ u = c :: b /\ is_word c = false) by (inversion R; subst; eexists _, _; split; reflexivity).
      assert (X' : exists c b, a' ++ L ">" ++ (tx' ++ s0' ++ L "</" ++ tag' ++ L ">") ++ u' = c :: b /\ is_word c = false) by (inversion R'; subst; eexists _, _; split; reflexivity).
      destruct X as (c & b & X & C), X' as (c' & b' & X' & C'). rewrite <- !app_assoc in X, X'. rewrite X, X' in E. destruct (name_det tag tag' _ _ _ _ (proj2 N) (proj2 N') C C' E) as (-> & <- & <-).
      rewrite <- X' in X. destruct (ra_det _ _ R _ _ _ _ R' (st1 _) (st1 _) X) as (-> & -> & X1).
      apply (app_inv_head (L ">")) in X1. clear X. rename X1 into X. destruct (kids_start _ _ Rk (tag' ++ L ">" ++ u)) as [w Y]. destruct (kids_start _ _ Rk' (tag' ++ L ">" ++ u')) as [w' Y'].
      rewrite Y, Y' in X. destruct (rc_det _ _ _ amp_np2 Rc _ _ _ _ _ _ Rc' lt_np lt_np LA LA X) as (-> & -> & X2).
      rewrite <- Y, <- Y' in X2. destruct (IHk _ _ _ _ Rk' X2) as (-> & -> & _). auto.
  - intros s' ks' u u' H' E. inversion H' as [|s1' k' tx' text' s0' ks0' R' Rc' Rk']; subst; cbn in E.
    + injection E as ->. auto.
    + exfalso. destruct (reads_start _ _ R') as (c & w & -> & C). cbn in E. injection E as <- _. discriminate.
  - intros s' ks' u u' H' E. inversion H' as [|s1' k' tx' text' s0' ks0' R' Rc' Rk']; subst.
    + exfalso. destruct (reads_start _ _ R) as (c & w & -> & C). cbn in E. injection E as -> _. discriminate.
    + rewrite <- !app_assoc in E. destruct (IHr _ _ _ _ R' E) as [-> ->]. apply app_inv_head in E.
      destruct (kids_start _ _ Rk u) as [w Y]. destruct (kids_start _ _ Rk' u') as [w' Y']. rewrite Y, Y' in E.
      destruct (rc_det _ _ _ amp_np2 Rc _ _ _ _ _ _ Rc' lt_np lt_np LA LA E) as (-> & -> & X2).
      rewrite <- Y, <- Y' in X2. destruct (IHk _ _ _ _ Rk' X2) as (-> & -> & ->). auto.
Qed.
Lemma all_space (a : str) : strip a = [] -> forall c, In c a -> is_space c = true.
Proof.
  intros H c I. unfold strip, rstrip in H. apply (f_equal (@rev ascii)) in H. rewrite rev_involutive in H. cbn in H.
  assert (D : forall l : str, dropwhile is_space l = [] -> forall c, In c l -> is_space c = true).
  { clear. induction l as [|x l IH]; intros E c I; [destruct I|]. cbn in E. destruct (is_space x) eqn:X; [|discriminate]. destruct I as [<-|I]; auto. }
  destruct (dropwhile is_space (lstrip a)) as [|] eqn:Q.
  - assert (E : lstrip a = []). { unfold lstrip in *. destruct (dropwhile is_space a) as [|x y] eqn:Z; auto. exfalso. pose proof (dropwhile_hd _ _ _ _ Z) as F. cbn in Q. rewrite F in Q. discriminate. }
    now apply (D a).
  - assert (E : lstrip a = []).
    { destruct (rev (lstrip a)) as [|x y] eqn:Z; [apply (f_equal (@rev ascii)) in Z; rewrite rev_involutive in Z; exact Z|].
      exfalso. assert (F : is_space (hd x (lstrip a)) = true).
      { assert (G : In (hd x (lstrip a)) (rev (lstrip a))). { apply -> in_rev. destruct (lstrip a) as [|p q]; [discriminate|now left]. }
        rewrite Z in G. apply (D (x :: y) H _ G). }
      unfold lstrip in *. destruct (dropwhile is_space a) as [|p q] eqn:Z2; [discriminate|]. cbn in F. pose proof (dropwhile_hd _ _ _ _ Z2). congruence. }
    now apply (D a).
Qed.

(* ---------------- C101 ---------------- *)
(* Whatever file is written, it is one XML document that holds the tree: the same tags,
   attributes, children and texts, but for white space around texts. *)
Theorem C101_kept e out : xml_tree e -> write e = Ok out -> exists t, reads_doc out t /\ kept e t.
Proof.
  intros W H. rewrite write_eq in H by auto. destruct (good e); [|discriminate]. injection H as <-.
  destruct (render_reads e W 0) as (x & t & -> & R & K). exists t. split; auto.
  exists (ind 0), x, [nl]. repeat split; auto.
Qed.
Print Assumptions C101_kept.
(* and a reader has no other choice: a text is at most one document *)
Theorem C101_unique s t t' : reads_doc s t -> reads_doc s t' -> t = t'.
Proof.
  intros (a & x & b & -> & A & B & R) (a' & x' & b' & E & A' & B' & R').
  destruct (reads_start _ _ R) as (c & u & -> & C). destruct (reads_start _ _ R') as (c' & u' & -> & C').
  assert (X : a = a' /\ ("<"%char :: c :: u) ++ b = ("<"%char :: c' :: u') ++ b').
  { pose proof (all_space _ A) as Sa. pose proof (all_space _ A') as Sa'. clear -E Sa Sa'. revert a' E Sa'.
    induction a as [|p a IH]; intros [|q a'] E Sa'; cbn in E.
    - auto.
    - injection E as <- _. exfalso. assert (X : is_space "<" = true) by (apply Sa'; now left). discriminate.
    - injection E as -> _. exfalso. assert (X : is_space "<" = true) by (apply Sa; now left). discriminate.
    - injection E as -> E. destruct (IH (fun c I => Sa c (or_intror I)) a' E (fun c I => Sa' c (or_intror I))) as [-> Y]. auto. }
  destruct X as [_ X]. now destruct (reads_det _ _ R _ _ _ _ R' X).
Qed.
Print Assumptions C101_unique.
Definition c101_tree : elem :=
  Elem (L "ccpp_datatable") [(L "version", L "1.0")] []
    [Elem (L "files") [] [] [Elem (L "file") [] (L " /a/b<c>.F90 ") []; Elem (L "file") [] (L "x&y") []];
     Elem (L "variables") [] [] [Elem (L "var") [(L "name", L "t"); (L "units", L "a > b")] [] []];
     Elem (L "dependencies") [] [] []].
Example C101_ex : write c101_tree = Ok (join [nl]
  [L "<ccpp_datatable version=""1.0"">";
   L "  <files>";
   L "    <file>/a/b&lt;c&gt;.F90</file>";
   L "    <file>x&amp;y</file>";
   L "  </files>";
   L "  <variables>";
   L "    <var name=""t"" units=""a &gt; b"" />";
   L "  </variables>";
   L "  <dependencies />";
   L "</ccpp_datatable>"; []]).
Proof. vm_compute. reflexivity. Qed.

(* ---------------- C102 ---------------- *)
(* The file is written exactly when every empty element has no slash in its attribute values
   and every other element has an attribute or a tag of two or more characters; otherwise
   the writer stops with an exception. *)
Theorem C102_written_iff e : xml_tree e -> ((exists out, write e = Ok out) <-> printable e).
Proof.
  intros W. rewrite write_eq, <- good_t by auto. destruct (good e); split; eauto; [intros [o H]; discriminate|discriminate].
Qed.
Print Assumptions C102_written_iff.
(* Refuted: "every datatable tree can be written". *)
Theorem C102_finding_slash : exists e, xml_tree e /\ write e = Raise "XMLToolsInternalError"%string.
Proof.
  exists (Elem (L "var") [(L "units", L "m/s")] [] []). split; [|vm_compute; reflexivity].
  intros tag attrs text kids H. inversion H as [E|? ? ? ? ? I]; subst; [|destruct I]. repeat split.
  - discriminate.
  - intros c I. cbn in I. repeat (destruct I as [<-|I]; [reflexivity|]). destruct I.
  - destruct H0 as [E|[]]. injection E as <- <-. discriminate.
  - destruct H0 as [E|[]]. injection E as <- <-. intros c I. cbn in I. repeat (destruct I as [<-|I]; [reflexivity|]). destruct I.
  - destruct H0 as [E|[]]. injection E as <- <-. intros c I. left. left. cbn in I. repeat (destruct I as [<-|I]; [vm_compute; lia|]). destruct I.
  - intros c [].
Qed.
Print Assumptions C102_finding_slash.
Example C102_ex : write (Elem (L "aa") [] [] [Elem (L "b") [] (L "t") []]) = Raise "XMLToolsInternalError"%string /\
                  write (Elem (L "aa") [] [] [Elem (L "bb") [(L "p", L "x/y")] (L "t") []]) <> Raise "XMLToolsInternalError"%string.
Proof. split; [vm_compute; reflexivity|vm_compute; discriminate]. Qed.
