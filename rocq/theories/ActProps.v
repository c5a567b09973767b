(* Conditions on variables: C136-C140. *)
From Coq Require Import List Ascii String ZArith Bool Lia Arith.
From Verif Require Import PyStr CompatModel ActModel ActSpec ActProofs.
Import ListNotations.
Open Scope nat_scope. Open Scope list_scope.

(* ---------------------------------------------------------------- C136 *)
(* A condition is translated token by token: operators, blanks and integers are
   copied, a name is replaced by the local name of the variable the first
   dictionary knowing it gives; the variables are reported in order. *)
Theorem C136_condition_translated : forall ds ts o vs, written ts ->
  (conditional ds (text ts) = Ok (o, vs) <-> image (denoted ds) cv_local ts o vs).
Proof.
  intros ds ts o vs W. unfold conditional. rewrite items_of_text; auto. apply items_text_image. now apply written_good.
Qed.
Print Assumptions C136_condition_translated.

Lemma image_total {V} (D : str -> V -> Prop) (local : V -> str) ts :
  (forall n, In (TName n) ts -> exists v, D (lower n) v) -> exists o vs, image D local ts o vs.
Proof.
  induction ts as [|t ts IH]; intros H; [do 2 eexists; constructor|].
  destruct IH as (o & vs & I); [intros n J; apply H; now right|].
  destruct t as [n|d|w]; [destruct (H n (or_introl eq_refl)) as [v Dv]|..]; do 2 eexists; econstructor; eauto.
Qed.
Lemma image_names {V} (D : str -> V -> Prop) (local : V -> str) ts o vs n :
  image D local ts o vs -> In (TName n) ts -> exists v, D (lower n) v.
Proof. induction 1; cbn [In]; intros J; [destruct J|..]; destruct J as [J|J]; try discriminate; auto. injection J as <-. eauto. Qed.

(* It succeeds exactly when every name is known. *)
Theorem C136_succeeds_iff_names_known : forall ds ts, written ts ->
  ((exists r, conditional ds (text ts) = Ok r) <-> (forall n, In (TName n) ts -> ~ unknown ds (lower n))).
Proof.
  intros ds ts W. split.
  - intros [[o vs] E] n I U. apply C136_condition_translated in E; auto. eapply image_names in I as [v D]; [|exact E].
    apply ask_some in D. apply ask_none in U. congruence.
  - intros H. destruct (image_total (denoted ds) cv_local ts) as (o & vs & I).
    + intros n J. destruct (ask ds (lower n)) as [v|] eqn:A; [exists v; now apply ask_some|]. apply ask_none in A. now apply H in J.
    + exists (o, vs). now apply C136_condition_translated.
Qed.
Print Assumptions C136_succeeds_iff_names_known.

Definition ex_flag := mkCV (L "flag_for_graupel") (L "has_graupel").
Definition ex_index := mkCV (L "index_of_water_vapor") (L "mod%ntqv").
Definition ex_dict (n : str) : option cvar :=
  if str_eqb n (L "flag_for_graupel") then Some ex_flag else if str_eqb n (L "index_of_water_vapor") then Some ex_index else None.
Definition ex_tokens : list token :=
  [TOp (L "("); TName (L "Flag_for_Graupel"); TOp (L " "); TOp (L ".and."); TName (L "index_of_water_vapor"); TOp (L ">="); TInt (L "10"); TOp (L ")")].
Ltac good_tac := first [cbn; tauto | split; [discriminate|repeat constructor]
                       | eexists; eexists; split; [reflexivity|split; [reflexivity|repeat constructor]]].
Ltac apart_tac := split; [cbn; tauto | intros [[X|X] Y]; try discriminate X; try discriminate Y].
Ltac written_tac := repeat first [apply written_nil | apply written_one; good_tac | apply written_cons; [good_tac|apart_tac|]].
Example C136_example :
  written ex_tokens /\ text ex_tokens = L "(Flag_for_Graupel .and.index_of_water_vapor>=10)" /\
  conditional [fun _ => None; ex_dict] (text ex_tokens) = Ok (L "(has_graupel .and.mod%ntqv>=10)", [ex_flag; ex_index]).
Proof. split; [|split; vm_compute; reflexivity]. unfold ex_tokens. written_tac. Qed.

(* ---------------------------------------------------------------- C137 *)
Lemma foreign_not_item c : foreign c -> in_item c = false.
Proof.
  intros [W N]. unfold in_item. rewrite W. cbn. destruct (Ascii.eqb_spec c "'"); auto. subst. exfalso. apply N. cbn. auto.
Qed.
Lemma foreign_fresh c s : foreign c -> fresh (c :: s).
Proof. intros F. split; [now apply foreign_not_item|]. intros ->. apply (proj2 F). cbn. auto 10. Qed.

(* A condition that uses something else -- signs, arithmetic, decimal points,
   components, tabs -- is not rejected: such a character is dropped, and the
   condition written means something else. *)
Theorem C137_foreign_characters_dropped_refuted : forall ds ts1 ts2 c o1 o2 vs1 vs2,
  written ts1 -> written ts2 -> foreign c ->
  match text ts2 with [] => True | d :: _ => is_lower d = false end ->
  image (denoted ds) cv_local ts1 o1 vs1 -> image (denoted ds) cv_local ts2 o2 vs2 ->
  conditional ds (text ts1 ++ c :: text ts2) = Ok (o1 ++ o2, vs1 ++ vs2).
Proof.
  intros ds ts1 ts2 c o1 o2 vs1 vs2 W1 W2 F S I1 I2. unfold conditional.
  rewrite items_text_app; auto; [|now apply foreign_fresh]. rewrite items_skip; [|now apply next_foreign].
  rewrite items_of_text; auto. rewrite items_text_app2.
  apply items_text_image in I1; [|now apply written_good]. apply items_text_image in I2; [|now apply written_good].
  rewrite I1, I2. reflexivity.
Qed.
Print Assumptions C137_foreign_characters_dropped_refuted.
(* [x > -10] is written [x > 10], [x < 0.5] is written [x < 05], [x-1 > 0] is
   written [x1 > 0], [a*2 == 4] is written [a2 == 4] *)
Example C137_examples :
  let ds := [ex_dict] in
  conditional ds (L "index_of_water_vapor > -10") = Ok (L "mod%ntqv > 10", [ex_index]) /\
  conditional ds (L "index_of_water_vapor < 0.5") = Ok (L "mod%ntqv < 05", [ex_index]) /\
  conditional ds (L "index_of_water_vapor-1 > 0") = Ok (L "mod%ntqv1 > 0", [ex_index]) /\
  foreign "-"%char /\ foreign "."%char /\ foreign "+"%char /\ foreign "*"%char /\ foreign "%"%char /\ foreign ","%char.
Proof. repeat split; try (vm_compute; reflexivity); cbn; intuition discriminate. Qed.

(* What is right: a condition made only of tokens is never altered by dropping
   something (C136).  A quoted text is never taken for a token either: it is
   reported, unless a dictionary knows a variable of that name. *)
Theorem C137_quoted_text_reported_partial : forall ds ts q rest,
  written ts -> unknown ds (lower ("'"%char :: q ++ ["'"%char])) ->
  Forall (fun c => is_word c = true) q ->
  match rest with [] => True | d :: _ => is_word d = false /\ d <> "'"%char end ->
  match List.rev ts with [] => True | t :: _ => ~ wordy t end ->
  exists e, conditional ds (text ts ++ "'"%char :: q ++ "'"%char :: rest) = Raise e.
Proof.
  intros ds ts q rest W U Q R E. unfold conditional.
  set (i := "'"%char :: q ++ ["'"%char]) in *.
  assert (N : next_item (i ++ rest) = Some (i, rest)).
  { apply next_word; [discriminate| |].
    - unfold i. constructor; [reflexivity|]. apply Forall_app. split; [|repeat constructor].
      eapply Forall_impl; [|exact Q]. intros; now apply word_item.
    - destruct rest as [|d rest]; cbn; auto. destruct R as [R1 R2]. unfold in_item. rewrite R1. cbn. now apply Ascii.eqb_neq. }
  replace ("'"%char :: q ++ "'"%char :: rest) with (i ++ rest) by (unfold i; cbn; now rewrite <- app_assoc).
  assert (A : items (text ts ++ i ++ rest) = map text1 ts ++ i :: items rest).
  { clear U. induction W as [|t G|a b r G A W IH].
    - cbn [text map concat app]. now apply items_some.
    - unfold text. cbn [map concat]. rewrite app_nil_r. cbn [rev app] in E.
      assert (X : next_item (text1 t ++ i ++ rest) = Some (text1 t, i ++ rest)).
      { destruct t as [n|d|w]; cbn [wordy] in E; try tauto. apply next_op; [exact G|]. intros _. cbn. discriminate. }
      rewrite (items_some _ _ _ X). cbn [app]. f_equal. now apply items_some.
    - change (text (a :: b :: r)) with (text1 a ++ text (b :: r)). rewrite <- app_assoc.
      assert (X : next_item (text1 a ++ text (b :: r) ++ i ++ rest) = Some (text1 a, text (b :: r) ++ i ++ rest)).
      { (* the same text with a harmless end *)
        assert (GB : good b) by (inversion W; auto).
        destruct (good_text b GB) as (cb & rb & EB & WB & NB). destruct A as [A1 A2].
        destruct (good_text a G) as (c & p & EA & WA & _). unfold text. cbn [map concat]. rewrite EB. cbn [app].
        destruct a as [n|d|w]; cbn [text1 wordy] in *.
        - apply next_word; [rewrite EA; discriminate|rewrite EA; now apply WA|]. cbn. apply NB. tauto.
        - apply next_word; [rewrite EA; discriminate|rewrite EA; now apply WA|]. cbn. apply NB. tauto.
        - apply next_op; [exact G|]. intros O. cbn. intros ->. apply A2. split.
          + destruct O as [-> | ->]; auto.
          + destruct b as [n|d|v]; cbn [text1 wordy good] in *.
            * specialize (WB I). inversion WB as [|x y X Y]; discriminate X.
            * specialize (WB I). inversion WB as [|x y X Y]; discriminate X.
            * f_equal. eapply op_eq; eauto. }
      rewrite (items_some _ _ _ X). change (map text1 (a :: b :: r)) with (text1 a :: map text1 (b :: r)). cbn [app]. f_equal. apply IH.
      change (rev (a :: b :: r)) with (rev (b :: r) ++ [a]) in E. destruct (rev (b :: r)) as [|t l] eqn:RV; [|exact E].
      apply (f_equal (@length token)) in RV. rewrite rev_length in RV. discriminate. }
  rewrite A, items_text_app2. destruct (items_text ds (map text1 ts)) as [x|e]; cbn [bind]; [|eauto].
  assert (T : item_text ds i = Raise "Exception: cannot find variable").
  { unfold item_text. cbv zeta. rewrite (proj2 (ask_none ds _) U).
    assert (M : mem_str (lower i) words = false).
    { apply mem_str_out. change words with operators. intros J. apply op_start in J as (c & r & J & C). change (lower i) with ("'"%char :: lower (q ++ ["'"%char])) in J. injection J as <- _. discriminate. }
    rewrite M.
    assert (P : py_int (lower i) = None).
    { unfold py_int. change (lower i) with ("'"%char :: lower (q ++ ["'"%char])). unfold lower. rewrite map_app. change (map lower_c ["'"%char]) with ["'"%char].
      unfold strip, lstrip. cbn [dropwhile]. change (is_space "'") with false. cbv iota. unfold rstrip.
      rewrite app_comm_cons, rev_app_distr. cbn [rev app dropwhile]. change (is_space "'") with false. cbv iota.
      cbn [rev]. rewrite rev_app_distr, rev_involutive. reflexivity. }
    now rewrite P. }
  cbn [items_text]. rewrite T. cbn [bind]. eauto.
Qed.
Print Assumptions C137_quoted_text_reported_partial.
Example C137_quoted_example : exists e, conditional [ex_dict] (L "index_of_water_vapor == 'abc'") = Raise e.
Proof.
  apply (C137_quoted_text_reported_partial [ex_dict] [TName (L "index_of_water_vapor"); TOp (L " "); TOp (L "=="); TOp (L " ")] (L "abc") []).
  - written_tac.
  - constructor; [reflexivity|constructor].
  - repeat constructor.
  - exact I.
  - cbn. tauto.
Qed.

(* ---------------------------------------------------------------- C138 *)
Definition small (t : token) : token := match t with TName n => TName (lower n) | _ => t end.
Lemma lower_c_idem c : lower_c (lower_c c) = lower_c c.
Proof. destruct c as [[] [] [] [] [] [] [] []]; vm_compute; auto. Qed.
Lemma lower_word c : is_word c = true -> is_word (lower_c c) = true.
Proof. destruct c as [[] [] [] [] [] [] [] []]; vm_compute; auto. Qed.
Lemma lower_idem' s : lower (lower s) = lower s.
Proof. unfold lower. rewrite map_map. apply map_ext, lower_c_idem. Qed.
Lemma good_small t : good t -> good (small t).
Proof.
  destruct t as [n|d|w]; cbn [good small]; auto. intros (c & r & -> & A & F). exists (lower_c c), (lower r). repeat split; [now apply lower_alpha|].
  apply Forall_map. eapply Forall_impl; [|exact F]. intros; now apply lower_word.
Qed.
Lemma wordy_small t : wordy (small t) <-> wordy t.
Proof. destruct t; cbn; tauto. Qed.
Lemma small_op t w : small t = TOp w -> t = TOp w.
Proof. destruct t; cbn; intros E; try discriminate; auto. Qed.
Lemma written_small ts : written ts -> written (map small ts).
Proof.
  induction 1 as [|t G|a b r G [A1 A2] W IH]; cbn [map]; [constructor|constructor; now apply good_small|].
  apply written_cons; [now apply good_small| |exact IH]. split; [now rewrite !wordy_small|].
  intros [[E|E] E2]; apply small_op in E, E2; subst; apply A2; auto.
Qed.
(* The case of the letters of a name does not matter. *)
Theorem C138_names_any_case_partial : forall ds ts, written ts ->
  conditional ds (text ts) = conditional ds (text (map small ts)).
Proof.
  intros ds ts W. unfold conditional. rewrite !items_of_text; auto; [|now apply written_small].
  apply written_good in W. induction W as [|t ts G _ IH]; auto. cbn [map items_text]. rewrite IH. f_equal.
  destruct t as [n|d|w]; auto. cbn [small text1]. rewrite (name_text ds n G), (name_text ds (lower n)), lower_idem'; auto.
  apply (good_small (TName n)), G.
Qed.
Print Assumptions C138_names_any_case_partial.
Example C138_example : conditional [ex_dict] (L "FLAG_for_graupel") = conditional [ex_dict] (L "flag_for_graupel") /\
  conditional [ex_dict] (L "FLAG_for_graupel") = Ok (L "has_graupel", [ex_flag]).
Proof. split; vm_compute; reflexivity. Qed.

(* the letters between the dots of an operator *)
Definition inner (w : str) : str := removelast (tl w).
(* In Fortran, letters in operators and logical constants may be upper case too.
   Here an upper-case operator, wherever it stands, makes the translation fail
   unless some variable happens to bear its name. *)
Theorem C138_upper_case_operators_refuted : forall ds ts w rest,
  In w operators -> upper w <> w -> unknown ds (inner w) -> written ts ->
  conditional ds (text ts ++ upper w ++ rest) = Raise "Exception: cannot find variable" \/
  conditional ds (text ts) = Raise "Exception: cannot find variable".
Proof.
  intros ds ts w rest I N U W.
  assert (K : exists n, upper w = "."%char :: n ++ ["."%char] /\ n <> [] /\ Forall (fun c => is_word c = true) n /\
              lower n = inner w /\ starts (fun d => is_lower d = false) n /\ exists a q, n = a :: q /\ is_alpha a = true).
  { unfold operators in I. cbn [map In] in I.
    repeat (destruct I as [<-|I];
      [first [exfalso; apply N; reflexivity
             | match goal with |- exists n, upper ?x = _ /\ _ =>
                 let n := eval cbv in (removelast (tl (upper x))) in exists n end;
               split; [reflexivity|]; split; [discriminate|]; split; [repeat constructor|]; split; [reflexivity|]; split; [reflexivity|];
               do 2 eexists; split; reflexivity]|]). destruct I. }
  destruct K as (n & E & NE & F & LN & ST & (ca & q & EN & CA)).
  assert (GN : good (TName n)).
  { exists ca, q. repeat split; auto. rewrite EN in F. now inversion F. }
  unfold conditional. rewrite E. cbn [app].
  destruct (items_text ds (items (text ts))) as [x|e] eqn:X.
  2:{ right. f_equal. rewrite items_of_text in X; auto. apply written_good in W. clear - X W.
      induction W as [|t ts G _ IH]; cbn [map items_text] in X; [discriminate|].
      destruct t as [m|d|w]; cbn [text1] in X; [rewrite name_text in X; auto|rewrite int_text in X; auto|rewrite op_text in X; auto].
      - destruct (ask ds (lower m)); cbn [bind] in X; [|congruence]. destruct (items_text ds (map text1 ts)); cbn [bind] in X; [discriminate|]. auto.
      - cbn [bind] in X. destruct (items_text ds (map text1 ts)); cbn [bind] in X; [discriminate|]. auto.
      - cbn [bind] in X. destruct (items_text ds (map text1 ts)); cbn [bind] in X; [discriminate|]. auto. }
  left. rewrite items_of_text in X; auto.
  rewrite items_text_app; auto; [|split; [reflexivity|discriminate]].
  rewrite items_skip.
  2:{ apply next_foreign; [split; [reflexivity|cbn; intuition discriminate]|]. rewrite EN in *. exact ST. }
  rewrite <- app_assoc. cbn [app].
  rewrite (items_some (n ++ "."%char :: rest) n ("."%char :: rest)).
  2:{ apply next_word; auto; [|reflexivity]. eapply Forall_impl; [|exact F]. intros; now apply word_item. }
  rewrite items_text_app2, X. cbn [bind]. cbn [items_text]. rewrite name_text; auto.
  rewrite LN, (proj2 (ask_none ds _) U). reflexivity.
Qed.
Print Assumptions C138_upper_case_operators_refuted.
Example C138_upper_example :
  conditional [ex_dict] (L "flag_for_graupel .AND. flag_for_graupel") = Raise "Exception: cannot find variable" /\
  conditional [ex_dict] (L ".TRUE.") = Raise "Exception: cannot find variable" /\
  unknown [ex_dict] (inner (L ".and.")) /\ inner (L ".and.") = L "and".
Proof. repeat split; try (vm_compute; reflexivity). repeat constructor. Qed.

(* ---------------------------------------------------------------- C139 *)
Lemma legal_line o : legal_if (if_line o) <-> parenthesised (strip o).
Proof.
  unfold legal_if, if_line. split.
  - intros (e & E & P). apply app_inv_head in E. apply app_inv_tail in E. now subst.
  - intros P. eauto.
Qed.
(* The condition is written as it is after [if]: without a condition (the default
   .true.), or with a single name, the line is not a Fortran if-then statement. *)
Theorem C139_if_without_parentheses_refuted :
  (forall ds, conditional ds (L ".true.") = Ok (L ".true.", []) /\ ~ legal_if (if_line (L ".true."))) /\
  (forall ds n v c r, good (TName n) -> denoted ds (lower n) v -> cv_local v = c :: r -> is_alpha c = true ->
     conditional ds n = Ok (cv_local v, [v]) /\ ~ legal_if (if_line (cv_local v))).
Proof.
  split.
  - intros ds. split; [reflexivity|]. rewrite legal_line. intros (r & E & _). vm_compute in E. discriminate.
  - intros ds n v c r G D E A. split.
    + pose proof (C136_condition_translated ds [TName n] (cv_local v) [v] (written_one _ G)) as [_ H].
      unfold text in H. cbn [map concat text1] in H. rewrite app_nil_r in H. apply H.
      rewrite <- (app_nil_r (cv_local v)). constructor; auto. constructor.
    + rewrite legal_line, E. intros (q & X & _). unfold strip, lstrip in X. cbn [dropwhile] in X. rewrite alpha_not_space in X; auto.
      unfold rstrip in X. cbn [rev] in X. pose proof (dropwhile_app is_space (rev r ++ [c])) as (p & Y & F).
      assert (Z : rev (dropwhile is_space (rev r ++ [c])) ++ rev p = c :: r).
      { rewrite <- rev_app_distr, <- Y, rev_app_distr, rev_involutive. reflexivity. }
      rewrite X in Z. injection Z as <- _. discriminate.
Qed.
Print Assumptions C139_if_without_parentheses_refuted.
Example C139_refuted_example : good (TName (L "flag_for_graupel")) /\ denoted [ex_dict] (lower (L "flag_for_graupel")) ex_flag /\
  if_line (cv_local ex_flag) = L "if has_graupel then".
Proof. split; [good_tac|]. split; [constructor; reflexivity|reflexivity]. Qed.

(* the tokens between the first and the last parenthesis *)
Fixpoint nested (d : nat) (ts : list token) : Prop :=
  match ts with
  | [] => d = 0
  | TOp w :: r => if str_eqb w (L "(") then nested (S d) r
                  else if str_eqb w (L ")") then match d with O => False | S d' => nested d' r end
                  else nested d r
  | _ :: r => nested d r
  end.
Definition plain (s : str) : Prop := Forall (fun c => c <> "("%char /\ c <> ")"%char) s.
Lemma plain_skip s : plain s -> forall d r, closed_at_end d (s ++ r) <-> closed_at_end d r.
Proof.
  induction 1 as [|c s [A B] _ IH]; intros d r; cbn [app closed_at_end]; [tauto|].
  destruct (Ascii.eqb_spec c "("); [congruence|]. destruct (Ascii.eqb_spec c ")"); [congruence|]. apply IH.
Qed.
Lemma word_plain (s : str) : Forall (fun c => is_word c = true) s -> plain s.
Proof. apply Forall_impl. intros c W. split; intros ->; discriminate. Qed.
Lemma op_plain w : In w operators -> w <> L "(" -> w <> L ")" -> plain w.
Proof.
  unfold operators. cbn [map In]. intros I A B.
  repeat (destruct I as [<-|I]; [first [exfalso; apply A; reflexivity|exfalso; apply B; reflexivity|repeat (constructor; [split; discriminate|]); constructor]|]). destruct I.
Qed.
Lemma nested_closed ds ts o vs : image (denoted ds) cv_local ts o vs -> Forall good ts ->
  (forall v, In v vs -> plain (cv_local v)) -> forall d, nested d ts -> closed_at_end d (o ++ L ")").
Proof.
  induction 1 as [|n v r o vs D I IH|t r o vs I IH|w r o vs I IH]; intros G P d N; cbn [nested] in N.
  - subst. cbn. reflexivity.
  - rewrite <- app_assoc. apply plain_skip; [apply P; now left|]. apply IH; auto; [now inversion G|]. intros; apply P; now right.
  - inversion G as [|x y Gt G']; subst. destruct Gt as [_ F]. rewrite <- app_assoc. apply plain_skip; [|now apply IH].
    apply word_plain. eapply Forall_impl; [|exact F]. intros; now apply digit_word.
  - inversion G as [|x y Gw G']; subst. cbn in Gw. rewrite <- app_assoc. destruct (str_eqb w (L "(")) eqn:E1.
    + apply str_eqb_eq in E1. subst. cbn. now apply IH.
    + destruct (str_eqb w (L ")")) eqn:E2.
      * apply str_eqb_eq in E2. subst. destruct d as [|d]; [destruct N|]. cbn. now apply IH.
      * apply plain_skip; [|now apply IH]. apply op_plain; auto; intros ->; rewrite str_eqb_refl in *; discriminate.
Qed.
(* A condition that stands in parentheses itself gives a legal line, when the
   local names contain no parentheses. *)
Theorem C139_parenthesised_condition_legal_partial : forall ds ts o vs,
  written (TOp (L "(") :: ts ++ [TOp (L ")")]) -> nested 0 ts ->
  conditional ds (text (TOp (L "(") :: ts ++ [TOp (L ")")])) = Ok (o, vs) ->
  (forall v, In v vs -> plain (cv_local v)) -> legal_if (if_line o).
Proof.
  intros ds ts o vs W N E P. apply C136_condition_translated in E; auto.
  pose proof (written_good _ W) as G. inversion G as [|x y _ G2]; subst. apply Forall_app in G2 as [G2 _].
  inversion E as [| | |w r o' vs' I]; subst. apply legal_line.
  assert (S : exists o1, o' = o1 ++ L ")" /\ image (denoted ds) cv_local ts o1 vs).
  { clear - I. revert o' vs I. induction ts as [|t ts IH]; intros o' vs I; cbn [app] in I.
    - inversion I as [| | |w r o2 vs2 J]; subst. inversion J; subst. exists []. split; [reflexivity|constructor].
    - inversion I as [|n v r o2 vs2 D J|d r o2 vs2 J|w r o2 vs2 J]; subst; apply IH in J as (o3 & -> & J); rewrite app_assoc; eexists; split; try reflexivity; now constructor. }
  destruct S as (o1 & -> & I1).
  assert (C : closed_at_end 0 (o1 ++ L ")")) by (eapply nested_closed; eauto).
  assert (ST : strip (L "(" ++ o1 ++ L ")") = L "(" ++ o1 ++ L ")").
  { unfold strip, lstrip. cbn [L app list_ascii_of_string dropwhile]. change (is_space "(") with false. cbv iota. unfold rstrip.
    rewrite app_comm_cons, rev_app_distr. cbn [rev app dropwhile]. change (is_space ")") with false. cbv iota.
    cbn [rev]. rewrite rev_app_distr, rev_involutive. reflexivity. }
  exists (o1 ++ L ")"). split; [exact ST|exact C].
Qed.
Print Assumptions C139_parenthesised_condition_legal_partial.
Example C139_example : nested 0 [TName (L "flag_for_graupel"); TOp (L ".or."); TOp (L "("); TName (L "index_of_water_vapor"); TOp (L ">"); TInt (L "0"); TOp (L ")")] /\
  legal_if (if_line (L "(has_graupel.or.(ntqv>0))")).
Proof.
  split; [vm_compute; reflexivity|]. apply legal_line. eexists. split; [vm_compute; reflexivity|]. vm_compute. reflexivity.
Qed.
