From Coq Require Import List Ascii String ZArith Bool Lia Arith.
From Verif Require Import PyStr SelModel SelProofs CheckProofs ActModel ActProofs ParModel ParSpec.
Import ListNotations.
Open Scope nat_scope. Open Scope list_scope.

Definition plainc (c : ascii) : Prop := c <> "("%char /\ c <> ")"%char.
Inductive forest := Nil | Ch (c : ascii) (f : forest) | Gr (g f : forest).
Fixpoint ftext (f : forest) : str :=
  match f with Nil => [] | Ch c f => c :: ftext f | Gr g f => "("%char :: ftext g ++ ")"%char :: ftext f end.
Fixpoint fok (f : forest) : Prop :=
  match f with Nil => True | Ch c f => plainc c /\ fok f | Gr g f => fok g /\ fok f end.
Fixpoint flat (f : forest) : str :=
  match f with Nil => [] | Ch c f => c :: flat f | Gr g f => flat f end.
Fixpoint leaf (f : forest) : bool := match f with Nil => true | Ch _ f => leaf f | Gr _ _ => false end.
Fixpoint deep (f : forest) : list str :=
  match f with Nil => [] | Ch _ f => deep f | Gr g f => index_names (flat g) ++ deep g ++ deep f end.
Fixpoint groups (f : forest) : nat := match f with Nil => 0 | Ch _ f => groups f | Gr g f => S (groups g + groups f) end.
Fixpoint remove (cs : str) (f : forest) : forest :=
  match f with
  | Nil => Nil
  | Ch c f => Ch c (remove cs f)
  | Gr g f => if str_eqb (ftext g) cs then remove cs f else Gr (remove cs g) (remove cs f)
  end.
Fixpoint holds (cs : str) (f : forest) : Prop :=
  match f with Nil => False | Ch _ f => holds cs f | Gr g f => ftext g = cs \/ holds cs g \/ holds cs f end.

Lemma leaf_flat f : leaf f = true -> ftext f = flat f.
Proof. induction f; cbn; intros; auto; [now rewrite IHf|discriminate]. Qed.
Lemma leaf_deep f : leaf f = true -> deep f = [].
Proof. induction f; cbn; intros; auto. discriminate. Qed.
Lemma plain_leaf f : Forall plainc (ftext f) -> leaf f = true.
Proof. induction f; cbn; intros H; auto; [apply IHf; now inversion H|]. inversion H as [|x y [X _] Y]; subst. congruence. Qed.
Lemma eq_plain (cs : str) f : Forall plainc cs -> fok f -> forall X Y, cs ++ ")"%char :: Y = ftext f ++ ")"%char :: X -> ftext f = cs.
Proof.
  intros P. revert f. induction P as [|c cs [A B] P IH]; intros f O X Y E.
  - destruct f as [|c f|g f]; cbn in E; auto; injection E as E _; [destruct O as [[? ?] _]; congruence|discriminate].
  - destruct f as [|d f|g f]; cbn in E; [injection E as E _; congruence| |injection E as E _; congruence].
    injection E as <- E. cbn. f_equal. eapply IH; [apply O|exact E].
Qed.
Lemma starts_p (p s : str) : startswith p s = true <-> exists r, s = p ++ r.
Proof.
  unfold startswith. destruct (after_prefix p s) as [r|] eqn:E.
  - apply after_prefix_some in E. split; eauto.
  - split; [discriminate|]. intros (q & ->). exfalso. clear - E. induction p as [|c p IH]; cbn in E; [discriminate|].
    rewrite Ascii.eqb_refl in E. auto.
Qed.

Lemma replace_remove (cs : str) f : Forall plainc cs -> fok f -> forall rest,
  rep ("("%char :: cs ++ [")"%char]) [] (ftext f ++ rest) 0 = ftext (remove cs f) ++ rep ("("%char :: cs ++ [")"%char]) [] rest 0.
Proof.
  intros P. induction f as [|c f IH|g IHg f IHf]; intros O rest; [reflexivity| |].
  - cbn [ftext remove app rep]. destruct (startswith _ (c :: ftext f ++ rest)) eqn:E.
    + apply starts_p in E as (r & E). cbn in E. injection E as E _. destruct O as [[X _] _]. congruence.
    + cbn [app]. f_equal. apply IH, O.
  - cbn [ftext remove]. destruct O as [Og Of].
    replace (("("%char :: ftext g ++ ")"%char :: ftext f) ++ rest) with ("("%char :: ftext g ++ ")"%char :: ftext f ++ rest) by (cbn; now rewrite <- app_assoc).
    destruct (str_eqb (ftext g) cs) eqn:E.
    + apply str_eqb_eq in E. rewrite E. cbn [rep].
      assert (S1 : startswith ("("%char :: cs ++ [")"%char]) ("("%char :: cs ++ ")"%char :: ftext f ++ rest) = true).
      { apply starts_p. exists (ftext f ++ rest). cbn. now rewrite <- app_assoc. }
      rewrite S1. cbn [app]. replace (cs ++ ")"%char :: ftext f ++ rest) with ((cs ++ [")"%char]) ++ ftext f ++ rest) by (now rewrite <- app_assoc).
      replace (length ("("%char :: cs ++ [")"%char]) - 1) with (length (cs ++ [")"%char])) by (cbn [length]; lia).
      rewrite rep_skip, skipn_app, skipn_all, Nat.sub_diag. cbn [skipn app]. now apply IHf.
    + apply str_eqb_neq in E. cbn [rep].
      destruct (startswith ("("%char :: cs ++ [")"%char]) ("("%char :: ftext g ++ ")"%char :: ftext f ++ rest)) eqn:E2.
      { apply starts_p in E2 as (r & E2). cbn in E2. injection E2 as E2. rewrite <- app_assoc in E2. cbn in E2. symmetry in E2.
        exfalso. apply E. eapply eq_plain; [exact P|exact Og|exact E2]. }
      rewrite IHg; auto. cbn [rep].
      destruct (startswith ("("%char :: cs ++ [")"%char]) (")"%char :: ftext f ++ rest)) eqn:E3.
      { apply starts_p in E3 as (r & E3). discriminate E3. }
      rewrite IHf; auto. cbn [ftext app]. now rewrite <- app_assoc.
Qed.
Lemma replace_forest (cs : str) f : Forall plainc cs -> fok f -> replace ("("%char :: cs ++ [")"%char]) [] (ftext f) = ftext (remove cs f).
Proof. intros P O. unfold replace. pose proof (replace_remove cs f P O []) as E. rewrite app_nil_r in E. rewrite E. cbn [rep]. apply app_nil_r. Qed.
Lemma remove_ok cs f : fok f -> fok (remove cs f).
Proof. induction f; cbn; auto; intros [A B]; auto. destruct (str_eqb (ftext f1) cs); cbn; auto. Qed.
Lemma flat_remove cs f : flat (remove cs f) = flat f.
Proof. induction f; cbn; auto; [now rewrite IHf|]. destruct (str_eqb (ftext f1) cs); cbn; auto. Qed.
Lemma groups_remove cs f : groups (remove cs f) <= groups f /\ (holds cs f -> groups (remove cs f) < groups f).
Proof.
  induction f as [|c f IH|g [G1 G2] f [F1 F2]]; cbn; [split; [lia|tauto]|auto|].
  destruct (str_eqb (ftext g) cs) eqn:E; [split; intros; lia|]. cbn. split; [lia|]. intros [H|[H|H]]; [|specialize (G2 H); lia|specialize (F2 H); lia].
  apply str_eqb_neq in E. congruence.
Qed.
Lemma deep_remove cs f : Forall plainc cs -> (forall x, In x (deep f) -> In x (index_names cs) \/ In x (deep (remove cs f))) /\
  (forall x, In x (deep (remove cs f)) -> In x (deep f)) /\ (holds cs f -> forall x, In x (index_names cs) -> In x (deep f)).
Proof.
  intros P. induction f as [|c f IH|g (G1 & G2 & G3) f (F1 & F2 & F3)]; [cbn; tauto|cbn; auto|]. cbn [deep remove holds].
  destruct (str_eqb (ftext g) cs) eqn:E.
  - apply str_eqb_eq in E. assert (LG : leaf g = true) by (apply plain_leaf; now rewrite E).
    rewrite (leaf_deep _ LG), <- (leaf_flat _ LG), E. cbn [app]. split; [|split]; [intros x; rewrite ?in_app_iff; intuition..|intros _ x; rewrite ?in_app_iff; intuition].
  - cbn [deep]. rewrite flat_remove. split; [|split]; [intros x; rewrite ?in_app_iff..|intros H x; rewrite ?in_app_iff].
    + intros [H|[H|H]]; [auto|apply G1 in H as [H|H]; auto|apply F1 in H as [H|H]; auto].
    + intros [H|[H|H]]; auto.
    + intros J. apply str_eqb_neq in E. destruct H as [H|[H|H]]; [congruence|right; left; auto|right; right; auto].
Qed.
Lemma innermost_spec f : fok f ->
  (leaf f = true /\ forall acc rest, innermost acc (ftext f ++ rest) = innermost (option_map (app (rev (ftext f))) acc) rest) \/
  (leaf f = false /\ exists cs, holds cs f /\ Forall plainc cs /\ forall acc rest, innermost acc (ftext f ++ rest) = Some cs).
Proof.
  induction f as [|c f IH|g IHg f IHf]; intros O.
  - left. split; auto. intros acc rest. cbn. destruct acc; reflexivity.
  - destruct O as [[A B] O]. cbn [ftext leaf app innermost holds]. apply Ascii.eqb_neq in A, B. destruct (IH O) as [[L1 I]|[L1 (cs & H & P & I)]].
    + left. split; auto. intros acc rest. rewrite A, B, I. f_equal. destruct acc; cbn [option_map]; auto. cbn [rev]. now rewrite <- app_assoc.
    + right. split; auto. exists cs. repeat split; auto. intros acc rest. rewrite A, B. apply I.
  - destruct O as [Og Of]. right. split; [reflexivity|]. destruct (IHg Og) as [[L1 I]|[L1 (cs & H & P & I)]].
    + exists (ftext g). split; [cbn; auto|]. split.
      * clear - L1 Og. induction g; cbn in *; auto; try discriminate. constructor; [apply Og|]. apply IHg; tauto.
      * intros acc rest. cbn [ftext app innermost]. change (Ascii.eqb "(" "(") with true. cbv iota. rewrite <- app_assoc, I. cbn [option_map app innermost].
        change (Ascii.eqb ")" "(") with false. change (Ascii.eqb ")" ")") with true. cbv iota. cbn [option_map]. f_equal. now rewrite app_nil_r, rev_involutive.
    + exists cs. split; [cbn; auto|]. split; auto. intros acc rest. cbn [ftext app innermost]. change (Ascii.eqb "(" "(") with true. cbv iota.
      rewrite <- app_assoc. apply I.
Qed.
Lemma has_open f : fok f -> has_char "("%char (ftext f) = negb (leaf f).
Proof.
  unfold has_char. induction f as [|c f IH|g IHg f IHf]; intros O; auto. cbn [ftext existsb leaf]. destruct O as [[A _] O].
  destruct (Ascii.eqb_spec "("%char c); [congruence|]. cbn [orb]. auto.
Qed.
Lemma groups_len f : groups f <= length (ftext f).
Proof. induction f; cbn; try lia. rewrite app_length. cbn. lia. Qed.
Lemma leaf_groups f : leaf f = false -> groups f <> 0.
Proof. induction f; cbn; auto; discriminate. Qed.
Lemma peel_forest n : forall f acc, fok f -> groups f <= n ->
  exists I, peel n acc (ftext f) = Ok (acc ++ I, flat f) /\ forall x, In x I <-> In x (deep f).
Proof.
  assert (LF : forall n f acc, fok f -> leaf f = true -> exists I, peel n acc (ftext f) = Ok (acc ++ I, flat f) /\ forall x, In x I <-> In x (deep f)).
  { intros m f acc O L1. exists []. rewrite (leaf_deep _ L1), <- (leaf_flat _ L1), app_nil_r. split; [|tauto].
    destruct m; cbn [peel]; rewrite has_open, L1; auto. }
  induction n as [|n IH]; intros f acc O H.
  - apply LF; auto. destruct (leaf f) eqn:E; auto. apply leaf_groups in E. lia.
  - destruct (leaf f) eqn:E; [now apply LF|]. cbn [peel]. rewrite has_open, E; auto. cbn [negb].
    destruct (innermost_spec f O) as [[L1 _]|[_ (cs & Hc & P & I)]]; [congruence|].
    specialize (I None []). rewrite app_nil_r in I. rewrite I, replace_forest; auto.
    destruct (IH (remove cs f) (acc ++ index_names cs)) as (J & EJ & QJ); [now apply remove_ok|destruct (groups_remove cs f) as [_ G]; specialize (G Hc); lia|].
    rewrite EJ, flat_remove. exists (index_names cs ++ J). split; [now rewrite <- app_assoc|]. intros x. rewrite in_app_iff, QJ.
    destruct (deep_remove cs f P) as (D1 & D2 & D3). split; [intros [K|K]; [now apply D3|now apply D2]|apply D1].
Qed.

(* ---------------------------------------------------------------- references are forests *)
Fixpoint fapp (a b : forest) : forest := match a with Nil => b | Ch c f => Ch c (fapp f b) | Gr g f => Gr g (fapp f b) end.
Lemma fapp_text a b : ftext (fapp a b) = ftext a ++ ftext b.
Proof. induction a; cbn; auto; [now rewrite IHa|]. rewrite IHa2, <- app_assoc. reflexivity. Qed.
Lemma fapp_flat a b : flat (fapp a b) = flat a ++ flat b.
Proof. induction a; cbn; auto. now rewrite IHa. Qed.
Lemma fapp_ok a b : fok a -> fok b -> fok (fapp a b).
Proof. induction a; cbn; auto; tauto. Qed.
Lemma fapp_deep a b x : In x (deep (fapp a b)) <-> In x (deep a) \/ In x (deep b).
Proof. induction a; cbn [fapp deep]; [cbn; tauto|auto|]. rewrite !in_app_iff, IHa2. tauto. Qed.
Fixpoint chars (s : str) : forest := match s with [] => Nil | c :: r => Ch c (chars r) end.
Lemma chars_text s : ftext (chars s) = s. Proof. induction s; cbn; auto. now rewrite IHs. Qed.
Lemma chars_flat s : flat (chars s) = s. Proof. induction s; cbn; auto. now rewrite IHs. Qed.
Lemma chars_deep s : deep (chars s) = []. Proof. induction s; cbn; auto. Qed.
Lemma chars_ok s : Forall plainc s -> fok (chars s). Proof. induction 1; cbn; auto. Qed.
Lemma word_plainc (s : str) : Forall (fun c => is_word c = true) s -> Forall plainc s.
Proof. apply Forall_impl. intros c W. split; intros ->; discriminate. Qed.
Lemma name_words n : name n -> n <> [] /\ Forall (fun c => is_word c = true) n.
Proof. intros (c & r & -> & A & F). split; [discriminate|]. constructor; auto. now apply alpha_word. Qed.
Lemma number_words n : number n -> n <> [] /\ Forall (fun c => is_word c = true) n.
Proof. intros [N F]. split; auto. eapply Forall_impl; [|exact F]. intros; now apply digit_word. Qed.
Lemma words_no (s : str) c : Forall (fun c => is_word c = true) s -> is_word c = false -> ~ In c s.
Proof. intros F W I. eapply Forall_forall in F; [|exact I]. congruence. Qed.

Definition based (f : forest) (b : str) : Prop := exists t, flat f = b ++ t /\ (t = [] \/ exists u, t = "%"%char :: u).
Definition has_names (P : str -> Prop) (i : list str) : Prop := forall x, P x <-> In x i.
Lemma before_char_at c (a : str) b : ~ In c a -> before_char c (a ++ c :: b) = a.
Proof.
  induction a as [|d a IH]; cbn; intros N; [now rewrite Ascii.eqb_refl|]. destruct (Ascii.eqb_spec c d); [subst; exfalso; auto|]. now rewrite IH; auto.
Qed.
Lemma has_char_in c s : has_char c s = true <-> In c s.
Proof. unfold has_char. rewrite existsb_exists. split; [intros (d & I & E); apply Ascii.eqb_eq in E; now subst|]. intros I. exists c. split; auto. apply Ascii.eqb_refl. Qed.
Lemma has_char_out c s : has_char c s = false <-> ~ In c s.
Proof. rewrite <- has_char_in. destruct (has_char c s); split; intros; try discriminate; auto. now contradiction H. Qed.
Lemma index_name_ref f b : name b -> based f b -> index_name (flat f) = [b].
Proof.
  intros N (t & E & T). rewrite E. destruct (name_words b N) as [NE W]. assert (X : ~ In "%"%char b) by now apply words_no.
  unfold index_name. destruct T as [-> | (u & ->)].
  - rewrite app_nil_r, (proj2 (has_char_out _ _) X). destruct N as (c & r & -> & A & F). now rewrite py_int_alpha.
  - rewrite before_char_at; auto. assert (H : has_char "%"%char (b ++ "%"%char :: u) = true) by (apply has_char_in, in_or_app; right; now left).
    rewrite H. destruct b; [congruence|reflexivity].
Qed.
Lemma index_name_number d : number d -> index_name d = [].
Proof.
  intros N. destruct (number_words d N) as [NE W]. destruct N as [_ F]. unfold index_name.
  rewrite (proj2 (has_char_out "%"%char d)); [|now apply words_no]. destruct (py_int_digits d NE F) as [z ->]. destruct d; auto.
Qed.
Definition no_sep (s : str) : Prop := ~ In ","%char s /\ ~ In ":"%char s.
Lemma refs_forests :
  (forall s b i, ref s b i -> name b /\ exists f, fok f /\ ftext f = s /\ based f b /\ no_sep (flat f) /\ has_names (fun x => In x (deep f)) i) /\
  (forall s b i, comp s b i -> name b /\ exists f, fok f /\ ftext f = s /\ flat f = b /\ has_names (fun x => In x (deep f)) i) /\
  (forall s i, subs s i -> exists f, fok f /\ ftext f = s /\ has_names (fun x => In x (index_names (flat f)) \/ In x (deep f)) i) /\
  (forall s i, sub s i -> exists f, fok f /\ ftext f = s /\ ~ In ","%char (flat f) /\
     has_names (fun x => In x (concat (map index_name (split_on ":"%char (flat f)))) \/ In x (deep f)) i) /\
  (forall s i, part s i -> exists f, fok f /\ ftext f = s /\ no_sep (flat f) /\
     has_names (fun x => In x (index_name (flat f)) \/ In x (deep f)) i).
Proof.
  apply ref_mutind.
  - intros s b i _ (N & f & O & T & F & D). split; auto. exists f. repeat split; auto; try apply D.
    + exists []. rewrite app_nil_r. auto.
    + rewrite F. apply words_no; [now apply name_words|reflexivity].
    + rewrite F. apply words_no; [now apply name_words|reflexivity].
  - intros s b i s' b' i' _ (N & f & O & T & F & D) _ (N' & f' & O' & T' & B' & [S1 S2] & D'). split; auto.
    exists (fapp f (Ch "%"%char f')). repeat split.
    + apply fapp_ok; auto. cbn. split; auto. split; discriminate.
    + rewrite fapp_text. cbn. now rewrite T, T'.
    + exists ("%"%char :: flat f'). rewrite fapp_flat. cbn. rewrite F. eauto.
    + rewrite fapp_flat. cbn. rewrite in_app_iff, F. cbn. intros [H|[H|H]]; [|discriminate|contradiction]. revert H. apply words_no; [now apply name_words|reflexivity].
    + rewrite fapp_flat. cbn. rewrite in_app_iff, F. cbn. intros [H|[H|H]]; [|discriminate|contradiction]. revert H. apply words_no; [now apply name_words|reflexivity].
    + rewrite fapp_deep. cbn [deep]. rewrite in_app_iff. intros [H|H]; [left; now apply D|right; now apply D'].
    + rewrite fapp_deep. cbn [deep]. rewrite in_app_iff. intros [H|H]; [left; now apply D|right; now apply D'].
  - intros n N. split; auto. exists (chars n). rewrite chars_text, chars_flat, chars_deep. repeat split; auto.
    apply chars_ok, word_plainc, name_words, N.
  - intros n s i N _ (f & O & T & D). split; auto. exists (fapp (chars n) (Gr f Nil)). rewrite fapp_text, fapp_flat, chars_text, chars_flat. cbn. rewrite T, app_nil_r. repeat split.
    + apply fapp_ok; [apply chars_ok, word_plainc, name_words, N|]. cbn. auto.
    + rewrite fapp_deep, chars_deep. cbn [deep]. rewrite !in_app_iff. cbn. intros H. apply D. tauto.
    + rewrite fapp_deep, chars_deep. cbn [deep]. rewrite !in_app_iff. cbn. intros H. apply D in H. tauto.
  - intros s i _ (f & O & T & NC & D). exists f. repeat split; auto.
    + unfold index_names. rewrite split_none; auto. cbn [map concat]. rewrite app_nil_r. apply D.
    + unfold index_names. rewrite split_none; auto. cbn [map concat]. rewrite app_nil_r. apply D.
  - intros s i s' i' _ (f & O & T & NC & D) _ (f' & O' & T' & D'). exists (fapp f (Ch ","%char f')).
    assert (E : forall x, (In x (index_names (flat (fapp f (Ch ","%char f')))) \/ In x (deep (fapp f (Ch ","%char f')))) <-> In x (i ++ i')).
    { intros x. rewrite fapp_flat. cbn [flat]. unfold index_names at 1. rewrite split_app; auto. cbn [map concat]. rewrite map_app, concat_app.
      fold (index_names (flat f')). rewrite !in_app_iff, fapp_deep. cbn [deep]. rewrite <- (D x), <- (D' x). tauto. }
    repeat split; try apply E.
    + apply fapp_ok; auto. cbn. split; auto. split; discriminate.
    + rewrite fapp_text. cbn. now rewrite T, T'.
  - intros s i _ (f & O & T & [N1 N2] & D). exists f. repeat split; auto.
    + rewrite split_none; auto. cbn [map concat]. rewrite app_nil_r. apply D.
    + rewrite split_none; auto. cbn [map concat]. rewrite app_nil_r. apply D.
  - intros s i s' i' _ (f & O & T & [N1 N2] & D) _ (f' & O' & T' & NC & D'). exists (fapp f (Ch ":"%char f')).
    assert (E : forall x, (In x (concat (map index_name (split_on ":"%char (flat (fapp f (Ch ":"%char f')))))) \/ In x (deep (fapp f (Ch ":"%char f')))) <-> In x (i ++ i')).
    { intros x. rewrite fapp_flat. cbn [flat]. rewrite split_app; auto. cbn [map concat].
      rewrite !in_app_iff, fapp_deep. cbn [deep]. rewrite <- (D x), <- (D' x). tauto. }
    repeat split; try apply E.
    + apply fapp_ok; auto. cbn. split; auto. split; discriminate.
    + rewrite fapp_text. cbn. now rewrite T, T'.
    + rewrite fapp_flat. cbn. rewrite in_app_iff. cbn. intros [H|[H|H]]; auto. discriminate.
  - exists Nil. cbn. repeat split; auto; cbn; tauto.
  - intros d N. destruct (number_words d N) as [NE W]. exists (chars d). rewrite chars_text, chars_flat, chars_deep, index_name_number; auto.
    repeat split; auto; try (now apply words_no); try (cbn; tauto). apply chars_ok, word_plainc, W.
  - intros s b i _ (N & f & O & T & B & S & D). exists f. rewrite (index_name_ref f b N B). split; [auto|]. split; [auto|]. split; [exact S|]. intros x. cbn [In]. specialize (D x). cbv beta in D. tauto.
Qed.
Lemma dedup_in l x : In x (dedup l) <-> In x l.
Proof.
  induction l as [|y l IH]; cbn; [tauto|]. destruct (existsb (str_eqb y) l) eqn:E.
  - apply existsb_exists in E as (z & I & E). apply str_eqb_eq in E. subst z. rewrite IH. split; auto. intros [<-|H]; auto.
  - cbn. now rewrite IH.
Qed.
Lemma dedup_nodup l : NoDup (dedup l).
Proof.
  induction l as [|y l IH]; cbn; [constructor|]. destruct (existsb (str_eqb y) l) eqn:E; auto. constructor; auto. rewrite dedup_in. intros I.
  assert (existsb (str_eqb y) l = true) by (apply existsb_exists; exists y; split; auto; apply str_eqb_refl). congruence.
Qed.
Lemma words_strip (s : str) : Forall (fun c => is_word c = true) s -> strip s = s.
Proof.
  intros F. assert (G : Forall (fun c => is_space c = false) s).
  { eapply Forall_impl; [|exact F]. intros c. destruct c as [[] [] [] [] [] [] [] []]; vm_compute; auto. }
  apply strip_inner. now apply Forall_forall.
Qed.
Lemma ref_index_names : (forall s b i, ref s b i -> name b /\ Forall name i) /\ (forall s b i, comp s b i -> name b /\ Forall name i) /\
  (forall s i, subs s i -> Forall name i) /\ (forall s i, sub s i -> Forall name i) /\ (forall s i, part s i -> Forall name i).
Proof.
  apply ref_mutind; intros; auto; try (apply Forall_app; tauto).
  - split; [tauto|]. apply Forall_app; tauto.
  - constructor; tauto.
Qed.
