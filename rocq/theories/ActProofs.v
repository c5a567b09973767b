From Coq Require Import List Ascii String ZArith Bool Lia Arith.
From Verif Require Import PyStr ActModel ActSpec.
Import ListNotations.
Open Scope nat_scope. Open Scope list_scope.

Lemma mem_str_in x l : mem_str x l = true <-> In x l.
Proof.
  unfold mem_str. rewrite existsb_exists. split.
  - intros (y & I & E). apply str_eqb_eq in E. now subst.
  - intros I. exists x. split; auto. apply str_eqb_refl.
Qed.
Lemma mem_str_out x l : mem_str x l = false <-> ~ In x l.
Proof. rewrite <- mem_str_in. destruct (mem_str x l); split; intros; try discriminate; auto. now contradiction H. Qed.

Lemma alpha_word c : is_alpha c = true -> is_word c = true.
Proof. unfold is_word. now intros ->. Qed.
Lemma digit_word c : is_digit c = true -> is_word c = true.
Proof. unfold is_word. intros ->. now rewrite orb_true_r. Qed.
Lemma word_item c : is_word c = true -> in_item c = true.
Proof. unfold in_item. now intros ->. Qed.
Lemma alpha_not_digit c : is_alpha c = true -> is_digit c = false.
Proof. destruct c as [[] [] [] [] [] [] [] []]; vm_compute; auto. Qed.
Lemma lower_alpha c : is_alpha c = true -> is_alpha (lower_c c) = true.
Proof. destruct c as [[] [] [] [] [] [] [] []]; vm_compute; auto. Qed.
Lemma alpha_not_space c : is_alpha c = true -> is_space c = false.
Proof. destruct c as [[] [] [] [] [] [] [] []]; vm_compute; auto. Qed.
Lemma digit_not_space c : is_digit c = true -> is_space c = false.
Proof. destruct c as [[] [] [] [] [] [] [] []]; vm_compute; auto. Qed.
Lemma lower_digit c : is_digit c = true -> lower_c c = c.
Proof. destruct c as [[] [] [] [] [] [] [] []]; vm_compute; auto; discriminate. Qed.

(* ---------------------------------------------------------------- the regex *)
Lemma match_word_len w : forall s r, match_word w s = Some r -> length s = length w + length r.
Proof.
  induction w as [|p w IH]; cbn [match_word]; intros s r E; [injection E as <-; auto|].
  destruct s as [|c s]; [discriminate|]. cbn [length].
  destruct (Ascii.eqb p "."); [destruct (Ascii.eqb c nl); [discriminate|]|destruct (Ascii.eqb p c); [|discriminate]]; apply IH in E; lia.
Qed.
Lemma first_word_len ws : Forall (fun w => w <> []) ws -> forall s i r, first_word ws s = Some (i, r) -> length r < length s.
Proof.
  induction 1 as [|w ws N _ IH]; cbn [first_word]; intros s i r E; [discriminate|].
  destruct (match_word w s) as [t|] eqn:M; [|eauto]. injection E as _ <-. apply match_word_len in M.
  destruct w; [congruence|]. cbn in M. lia.
Qed.
Lemma words_nonempty : Forall (fun w => w <> []) words.
Proof. unfold words. repeat constructor; discriminate. Qed.
Lemma dropwhile_len {A} (f : A -> bool) l : length (dropwhile f l) <= length l.
Proof. induction l as [|a l IH]; cbn; auto. destruct (f a); cbn; lia. Qed.
Lemma next_item_len s i r : next_item s = Some (i, r) -> length r < length s.
Proof.
  destruct s as [|c s]; [discriminate|]. unfold next_item. destruct (in_item c) eqn:C.
  - cbn [dropwhile takewhile]. rewrite C. intros [= _ <-]. cbn [length]. pose proof (dropwhile_len in_item s). lia.
  - apply first_word_len, words_nonempty.
Qed.
Lemma findall_fuel : forall n f s, length s <= n -> length s <= f -> findall f s = items s.
Proof.
  unfold items. induction n as [|n IH]; intros f s LN LF.
  - destruct s; [destruct f; auto|cbn in LN; lia].
  - destruct s as [|c s]; [destruct f; auto|]. cbn [length] in *. destruct f as [|f]; [lia|].
    cbn [findall]. destruct (next_item (c :: s)) as [[i r]|] eqn:E.
    + apply next_item_len in E. cbn [length] in E. f_equal. rewrite (IH f r), (IH (length s) r); auto; lia.
    + apply IH; lia.
Qed.
Lemma items_some s i r : next_item s = Some (i, r) -> items s = i :: items r.
Proof.
  intros E. unfold items at 1. destruct s as [|c s]; [discriminate|]. cbn [length findall]. rewrite E. f_equal.
  apply next_item_len in E. cbn [length] in E. eapply findall_fuel; [reflexivity|lia].
Qed.
Lemma items_skip c s : next_item (c :: s) = None -> items (c :: s) = items s.
Proof. intros E. unfold items at 1. cbn [length findall]. rewrite E. reflexivity. Qed.

Definition starts (P : ascii -> Prop) (s : str) : Prop := match s with [] => True | c :: _ => P c end.

Lemma takewhile_all {A} (f : A -> bool) (l r : list A) : Forall (fun x => f x = true) l ->
  match r with [] => True | c :: _ => f c = false end -> takewhile f (l ++ r) = l /\ dropwhile f (l ++ r) = r.
Proof.
  induction 1 as [|a l H _ IH]; cbn.
  - destruct r as [|c r]; cbn; auto. intros ->. auto.
  - intros E. rewrite H. destruct (IH E) as [-> ->]. auto.
Qed.
Lemma next_word (n r : str) : n <> [] -> Forall (fun c => in_item c = true) n -> starts (fun c => in_item c = false) r ->
  next_item (n ++ r) = Some (n, r).
Proof.
  intros N F R. destruct (takewhile_all in_item n r F R) as [T D].
  destruct n as [|c n]; [congruence|]. inversion F; subst. change (next_item (c :: n ++ r) = Some (c :: n, r)).
  unfold next_item. rewrite H1. cbn [app] in T, D. now rewrite T, D.
Qed.
Lemma next_op (w r : str) : In w operators ->
  ((w = L "<" \/ w = L ">") -> starts (fun c => c <> "="%char) r) -> next_item (w ++ r) = Some (w, r).
Proof.
  intros I. unfold operators in I. cbn [map In] in I.
  repeat (destruct I as [<-|I]; [intros H; try reflexivity|]); [| |destruct I].
  - specialize (H (or_introl eq_refl)). destruct r as [|c r]; [reflexivity|]. cbn [starts] in H.
    change (next_item (L "<" ++ c :: r)) with (match (if Ascii.eqb "="%char c then Some r else None) with Some rest => Some (["<"%char; c], rest) | None => Some (["<"%char], c :: r) end).
    destruct (Ascii.eqb_spec "="%char c); [congruence|reflexivity].
  - specialize (H (or_intror eq_refl)). destruct r as [|c r]; [reflexivity|]. cbn [starts] in H.
    change (next_item (L ">" ++ c :: r)) with (match (if Ascii.eqb "="%char c then Some r else None) with Some rest => Some ([">"%char; c], rest) | None => Some ([">"%char], c :: r) end).
    destruct (Ascii.eqb_spec "="%char c); [congruence|reflexivity].
Qed.
Lemma op_start w : In w operators -> exists c r, w = c :: r /\ in_item c = false.
Proof. unfold operators. cbn [map In]. intros I. repeat (destruct I as [<-|I]; [eexists; eexists; split; [reflexivity|reflexivity]|]). destruct I. Qed.
Lemma op_eq w r : In w operators -> w = "="%char :: r -> w = L "==".
Proof. unfold operators. cbn [map In]. intros I. repeat (destruct I as [<-|I]; [intros E; first [discriminate E|reflexivity]|]). destruct I. Qed.
Lemma good_text t : good t -> exists c r, text1 t = c :: r /\ (wordy t -> Forall (fun d => in_item d = true) (c :: r)) /\ (~ wordy t -> in_item c = false).
Proof.
  destruct t as [n|d|w]; cbn [good text1 wordy].
  - intros (c & r & -> & A & F). exists c, r. repeat split; [|tauto]. intros _. constructor; [apply word_item, alpha_word, A|].
    eapply Forall_impl; [|exact F]. intros; now apply word_item.
  - intros [N F]. destruct d as [|c r]; [congruence|]. exists c, r. repeat split; [|tauto]. intros _.
    eapply Forall_impl; [|exact F]. intros; now apply word_item, digit_word.
  - intros I. destruct (op_start w I) as (c & r & -> & C). exists c, r. repeat split; auto. tauto.
Qed.

(* the text after written tokens: nothing, or a character that is neither of a word nor "=" *)
Definition fresh (s : str) : Prop := starts (fun c => in_item c = false /\ c <> "="%char) s.
Lemma items_text_app ts : written ts -> forall rest, fresh rest -> items (text ts ++ rest) = map text1 ts ++ items rest.
Proof.
  unfold text. induction 1 as [|t G|a b r G A W IH]; intros rest FR.
  - reflexivity.
  - cbn [map concat]. rewrite app_nil_r.
    assert (N : next_item (text1 t ++ rest) = Some (text1 t, rest)).
    { destruct (good_text t G) as (c & r & E & W & _). destruct t as [n|d|w]; cbn [text1] in *.
      - apply next_word; [rewrite E; discriminate|rewrite E; now apply W|]. destruct rest; cbn; auto. apply FR.
      - apply next_word; [rewrite E; discriminate|rewrite E; now apply W|]. destruct rest; cbn; auto. apply FR.
      - apply next_op; [exact G|]. intros _. destruct rest; cbn; auto. apply FR. }
    rewrite (items_some _ _ _ N). reflexivity.
  - change (concat (map text1 (a :: b :: r))) with (text1 a ++ concat (map text1 (b :: r))).
    change (map text1 (a :: b :: r)) with (text1 a :: map text1 (b :: r)). rewrite <- app_assoc.
    assert (N : next_item (text1 a ++ concat (map text1 (b :: r)) ++ rest) = Some (text1 a, concat (map text1 (b :: r)) ++ rest)).
    { assert (GB : good b) by (inversion W; auto).
      destruct (good_text b GB) as (cb & rb & EB & WB & NB). destruct A as [A1 A2].
      destruct (good_text a G) as (c & q & E & WA & _). cbn [map concat]. rewrite EB. cbn [app].
      destruct a as [n|d|w]; cbn [text1 wordy] in *.
      - apply next_word; [rewrite E; discriminate|rewrite E; now apply WA|]. cbn. apply NB. tauto.
      - apply next_word; [rewrite E; discriminate|rewrite E; now apply WA|]. cbn. apply NB. tauto.
      - apply next_op; [exact G|]. intros O. cbn. intros ->. apply A2. split.
        + destruct O as [-> | ->]; auto.
        + destruct b as [n|d|v]; cbn [text1 wordy good] in *.
          * specialize (WB I). inversion WB as [|x y X Y]; discriminate X.
          * specialize (WB I). inversion WB as [|x y X Y]; discriminate X.
          * f_equal. eapply op_eq; eauto. }
    rewrite (items_some _ _ _ N). cbn [app]. f_equal. apply IH. exact FR.
Qed.
Lemma items_of_text ts : written ts -> items (text ts) = map text1 ts.
Proof.
  intros W. pose proof (items_text_app ts W [] I) as E. rewrite app_nil_r in E. rewrite E. change (items []) with (@nil str). apply app_nil_r.
Qed.

(* ---------------------------------------------------------------- the translation *)
Lemma not_op_word (n : str) : starts (fun c => is_word c = true) n -> n <> [] -> mem_str n words = false.
Proof.
  intros A N. apply mem_str_out. change words with operators. intros I. apply op_start in I as (c & r & -> & C).
  cbn [starts] in A. apply word_item in A. congruence.
Qed.
Lemma py_int_alpha c (r : str) : is_alpha c = true -> py_int (c :: r) = None.
Proof.
  intros A. unfold py_int, strip, lstrip. cbn [dropwhile]. rewrite (alpha_not_space _ A).
  assert (D : exists q, rstrip (c :: r) = c :: q).
  { unfold rstrip. cbn [rev]. pose proof (dropwhile_app is_space (rev r ++ [c])) as (p & E & F).
    destruct (dropwhile is_space (rev r ++ [c])) as [|x t] eqn:X.
    - rewrite app_nil_r in E. exfalso. assert (In c p) by (rewrite <- E; apply in_or_app; right; now left).
      rewrite forallb_forall in F. apply F in H. rewrite alpha_not_space in H; auto. discriminate.
    - assert (Y : exists q, x :: t = q ++ [c]).
      { apply (f_equal (@rev ascii)) in E. rewrite rev_app_distr in E. cbn [rev app] in E. rewrite rev_app_distr in E.
        destruct (rev (x :: t)) as [|y q] eqn:R.
        - apply (f_equal (@rev ascii)) in R. rewrite rev_involutive in R. discriminate.
        - cbn [app] in E. injection E as <- E. exists (rev q). apply (f_equal (@rev ascii)) in R. now rewrite rev_involutive in R. }
      destruct Y as [q Y]. rewrite Y, rev_app_distr. cbn. eauto. }
  destruct D as [q D]. rewrite D.
  destruct (Ascii.eqb_spec c "-") as [->|]; [discriminate A|]. destruct (Ascii.eqb_spec c "+") as [->|]; [discriminate A|].
  unfold unsigned_val. now rewrite (alpha_not_digit _ A).
Qed.
Lemma digits_val_some d : Forall (fun c => is_digit c = true) d -> forall acc, exists z, digits_val acc d = Some z.
Proof. induction 1 as [|c r H _ IH]; intros acc; cbn [digits_val]; [eauto|]. rewrite H. apply IH. Qed.
Lemma dropwhile_none {A} (f : A -> bool) l : Forall (fun x => f x = false) l -> dropwhile f l = l.
Proof. destruct 1; cbn; auto. now rewrite H. Qed.
Lemma py_int_digits d : d <> [] -> Forall (fun c => is_digit c = true) d -> exists z, py_int d = Some z.
Proof.
  intros N F. unfold py_int.
  assert (ST : strip d = d).
  { unfold strip, lstrip, rstrip. rewrite (dropwhile_none is_space d).
    - rewrite dropwhile_none; [apply rev_involutive|]. apply Forall_rev. eapply Forall_impl; [|exact F]. intros; now apply digit_not_space.
    - eapply Forall_impl; [|exact F]. intros; now apply digit_not_space. }
  rewrite ST. destruct d as [|c r]; [congruence|]. assert (C : is_digit c = true) by now inversion F.
  destruct (Ascii.eqb_spec c "-") as [->|]; [discriminate C|]. destruct (Ascii.eqb_spec c "+") as [->|]; [discriminate C|].
  unfold unsigned_val. rewrite C. now apply digits_val_some.
Qed.
Lemma lower_op w : In w operators -> lower w = w.
Proof. unfold operators. cbn [map In]. intros I. repeat (destruct I as [<-|I]; [reflexivity|]). destruct I. Qed.
Lemma lower_digits d : Forall (fun c => is_digit c = true) d -> lower d = d.
Proof. unfold lower. induction 1 as [|c r H _ IH]; cbn; auto. now rewrite IH, lower_digit. Qed.

Lemma ask_some ds n v : ask ds n = Some v <-> denoted ds n v.
Proof.
  split.
  - induction ds as [|d ds IH]; cbn [ask]; intros E; [discriminate|]. destruct (d n) eqn:D; [injection E as <-; now constructor|].
    apply denoted_later; auto.
  - induction 1 as [d r n v E|d r n v E _ IH]; cbn [ask]; rewrite E; auto.
Qed.
Lemma ask_none ds n : ask ds n = None <-> unknown ds n.
Proof.
  unfold unknown. split.
  - induction ds as [|d ds IH]; cbn [ask]; intros E; constructor; destruct (d n) eqn:D; try discriminate; auto.
  - induction 1 as [|d r E _ IH]; cbn [ask]; auto. now rewrite E.
Qed.

Lemma name_text ds n : good (TName n) ->
  item_text ds n = match ask ds (lower n) with Some v => Ok (cv_local v, [v]) | None => Raise "Exception: cannot find variable" end.
Proof.
  intros (c & r & -> & A & F). unfold item_text. cbv zeta. rewrite not_op_word.
  - change (lower (c :: r)) with (lower_c c :: lower r). rewrite py_int_alpha; auto. now apply lower_alpha.
  - cbn. now apply alpha_word, lower_alpha.
  - discriminate.
Qed.
Lemma int_text ds d : good (TInt d) -> item_text ds d = Ok (d, []).
Proof.
  intros [N F]. unfold item_text. cbv zeta. rewrite lower_digits; auto. rewrite not_op_word; auto.
  - destruct (py_int_digits d N F) as [z ->]. reflexivity.
  - destruct d; cbn; auto. inversion F; subst. now apply digit_word.
Qed.
Lemma op_text ds w : good (TOp w) -> item_text ds w = Ok (w, []).
Proof.
  intros I. cbn in I. unfold item_text. cbv zeta. rewrite lower_op; auto.
  assert (M : mem_str w words = true) by (apply mem_str_in; exact I). now rewrite M.
Qed.
Lemma items_text_image ds ts : Forall good ts -> forall o vs,
  items_text ds (map text1 ts) = Ok (o, vs) <-> image (denoted ds) cv_local ts o vs.
Proof.
  induction 1 as [|t ts G _ IH]; cbn [map items_text]; intros o vs.
  - split; [intros [= <- <-]; constructor|now inversion 1].
  - destruct t as [n|d|w]; cbn [text1].
    + rewrite name_text; auto. split.
      * intros E. destruct (ask ds (lower n)) as [v|] eqn:A; [|discriminate]. cbn [bind] in E.
        apply bind_ok in E as ([o' vs'] & E & [= <- <-]). apply IH in E. constructor; auto. now apply ask_some.
      * inversion 1 as [|n' v r o' vs' D I| |]; subst. apply ask_some in D. apply IH in I. rewrite D. cbn [bind]. rewrite I. reflexivity.
    + rewrite int_text; auto. cbn [bind]. split.
      * intros E. apply bind_ok in E as ([o' vs'] & E & [= <- <-]). apply IH in E. now constructor.
      * inversion 1 as [| |d' r o' vs' I|]; subst. apply IH in I. rewrite I. reflexivity.
    + rewrite op_text; auto. cbn [bind]. split.
      * intros E. apply bind_ok in E as ([o' vs'] & E & [= <- <-]). apply IH in E. now constructor.
      * inversion 1 as [| | |w' r o' vs' I]; subst. apply IH in I. rewrite I. reflexivity.
Qed.
Lemma written_good ts : written ts -> Forall good ts.
Proof. induction 1; auto. Qed.
Lemma items_text_app2 ds a b : items_text ds (a ++ b) =
  (x <- items_text ds a ;; y <- items_text ds b ;; Ok (fst x ++ fst y, snd x ++ snd y)).
Proof.
  induction a as [|i a IH]; cbn [app items_text].
  - cbn [bind fst snd app]. destruct (items_text ds b) as [[o vs]|]; reflexivity.
  - destruct (item_text ds i) as [[o1 v1]|]; cbn [bind]; auto. rewrite IH. destruct (items_text ds a) as [[o2 v2]|]; cbn [bind]; auto.
    destruct (items_text ds b) as [[o3 v3]|]; cbn [bind]; auto. cbn [fst snd]. now rewrite !app_assoc.
Qed.
(* nothing starts at a foreign character unless a lower-case letter follows *)
Lemma next_foreign c s : foreign c -> starts (fun d => is_lower d = false) s -> next_item (c :: s) = None.
Proof.
  intros [W N] S. assert (C : in_item c = false).
  { unfold in_item. rewrite W. cbn. destruct (Ascii.eqb_spec c "'"); auto. subst. exfalso. apply N. cbn. auto. }
  unfold next_item. rewrite C. unfold words. cbn [map first_word].
  assert (K : forall p w, Ascii.eqb p "."%char = false -> In p (L "' ()=/<>") -> match_word (p :: w) (c :: s) = None).
  { intros p w D I. cbn [match_word]. rewrite D. destruct (Ascii.eqb_spec p c); auto. subst. contradiction. }
  assert (Q : forall p w, is_lower p = true -> match_word ("."%char :: p :: w) (c :: s) = None).
  { intros p w D. cbn [match_word Ascii.eqb Bool.eqb]. destruct (Ascii.eqb c nl); auto. cbn. destruct s as [|x s]; auto. cbn [starts] in S.
    destruct (Ascii.eqb_spec p "."); [subst; discriminate|]. destruct (Ascii.eqb_spec p x); auto. congruence. }
  repeat match goal with
         | |- context [match_word (L ?w) (c :: s)] =>
             let x := eval cbn in (L w) in change (L w) with x;
             first [rewrite Q by reflexivity | rewrite K by first [reflexivity | cbn; tauto]]
         end. reflexivity.
Qed.
