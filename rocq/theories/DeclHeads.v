(* DeclHeads.v: the type at the head of a declaration is recognised. *)
From Verif Require Import PyStr Base LineSpec LineModel LineProofs CheckModel CheckProofs DeclModel DeclSpec DeclProofs.
From Coq Require Import Lia.
Open Scope nat_scope.
Open Scope list_scope.

Ltac lens := repeat (rewrite !app_length || cbn [L list_ascii_of_string length app]); lia.
Lemma opener_facts c : opener c -> is_space c = false /\ Ascii.eqb c "(" = false /\ Ascii.eqb c ")" = false /\ Ascii.eqb c "*" = false.
Proof.
  intros [->|[->|A]]; [auto 10|auto 10|]. split; [now apply alpha_not_space|].
  split; [|split]; match goal with |- Ascii.eqb c ?d = false => destruct (Ascii.eqb_spec c d); auto; subst; discriminate end.
Qed.
(* what the matchers see: the group and at most one more character *)
Lemma cut_strip x body w c t : (exists y z, x = y :: z /\ is_space y = false) -> ~ In "("%char x -> ~ In ","%char x -> ~ In "("%char body -> ~ In ")"%char body -> blank w -> opener c ->
  exists r, strip (cut_line ((x ++ L "(" ++ body ++ L ")") ++ w ++ c :: t)) = x ++ L "(" ++ body ++ L ")" ++ r /\ (r = [] \/ r = [c]).
Proof.
  intros S A B C D W O. rewrite <- !app_assoc. rewrite cut_group by auto.
  assert (G : solid (x ++ L "(" ++ body ++ L ")")).
  { destruct S as (y & z & -> & Y). split; [exists y, (z ++ L "(" ++ body ++ L ")"); auto|].
    exists ((y :: z) ++ L "(" ++ body), ")"%char. split; auto. now rewrite <- !app_assoc. }
  destruct w as [|d w].
  - exists [c]. split; [|now right]. cbn [app firstn]. apply strip_solid. destruct G as [(y & z & E & Y) _]. split.
    + exists y, (z ++ [c]). split; auto. rewrite app_comm_cons, <- E. now rewrite <- !app_assoc.
    + exists (x ++ L "(" ++ body ++ L ")"), c. split; [now rewrite <- !app_assoc|apply opener_facts; auto].
  - exists []. split; [|now left]. rewrite app_nil_r. cbn [app firstn].
    replace (x ++ L "(" ++ body ++ L ")" ++ [d]) with ((x ++ L "(" ++ body ++ L ")") ++ [d]) by now rewrite <- !app_assoc.
    rewrite strip_blank_r; [now apply strip_solid|]. unfold blank in *. cbn in *. apply andb_true_iff in W as [-> _]. reflexivity.
Qed.
Lemma last_snoc {A} (l : list A) x d : List.last (l ++ [x]) d = x.
Proof. induction l as [|y l IH]; auto. cbn. destruct (l ++ [x]) eqn:E; [now destruct l|auto]. Qed.
Lemma inner_group (body : str) : inner (L "(" ++ body ++ L ")") = body.
Proof. unfold inner. cbn. apply removelast_last. Qed.
Lemma split_none sep (s : str) : ~ In sep s -> split_on sep s = [s].
Proof.
  induction s as [|c s IH]; intros N; auto. cbn. rewrite IH by (intros I; apply N; now right).
  destruct (Ascii.eqb_spec c sep) as [->|]; [exfalso; apply N; now left|reflexivity].
Qed.

(* ---- kinds ---- *)
Lemma kind_search_word s r : forallb is_word s = true -> kind_search s = Some r -> forallb is_word r = true.
Proof.
  induction s as [|c s IH]; intros F; [discriminate|]. cbn [kind_search].
  destruct (after_ci (L "kind") (c :: s)) as [[a [|d b]]|] eqn:E; intros H.
  - apply IH; auto. cbn in F. now apply andb_true_iff in F as [_ F].
  - injection H as <-. apply after_ci_some in E as [E _]. rewrite E in F. now apply forallb_app_iff in F as [_ F].
  - apply IH; auto. cbn in F. now apply andb_true_iff in F as [_ F].
Qed.
Lemma quotes_word r : forallb is_word r = true -> kind_quotes_ok r = true.
Proof.
  intros F. unfold kind_quotes_ok. assert (Z : lstrip r = r).
  { destruct r as [|c r]; auto. cbn in F. apply andb_true_iff in F as [C _]. apply lstrip_head. now apply word_not_space. }
  rewrite Z. destruct r as [|c r]; auto. cbn in F. apply andb_true_iff in F as [C F]. assert (P : starts_c "(" (c :: r) = false).
  { cbn. destruct (Ascii.eqb_spec c "("); auto. subst. discriminate. }
  rewrite P, Z. destruct r as [|d r]; auto. assert (Q : quote_c c = false).
  { unfold quote_c. destruct (Ascii.eqb_spec c "'"); [subst; discriminate|]. destruct (Ascii.eqb_spec c """"); [subst; discriminate|auto]. }
  now rewrite Q.
Qed.
Lemma kind_fine k : kind_value k ->
  match kind_search k with
  | Some r => if kind_quotes_ok r then Ok k else Raise "ParseSyntaxError: kind_selector"
  | None => if str_eqb (lower (firstn 4 k)) (L "kind") then Raise "ParseSyntaxError: kind_selector" else Ok k
  end = Ok k.
Proof.
  intros (N & F & NK). destruct (kind_search k) as [r|] eqn:E.
  - now rewrite quotes_word by now apply (kind_search_word k).
  - destruct (str_eqb (lower (firstn 4 k)) (L "kind")) eqn:Q; auto. apply str_eqb_eq in Q. exfalso.
    destruct k as [|c k]; [easy|]. cbn [kind_search] in E.
    pose proof (after_ci_spells (firstn 4 (c :: k)) (L "kind") (skipn 4 (c :: k)) Q) as A. rewrite firstn_skipn in A. rewrite A in E.
    destruct (skipn 4 (c :: k)) as [|d r] eqn:S; [|discriminate]. apply NK. unfold spells.
    rewrite <- (firstn_skipn 4 (c :: k)), S, app_nil_r. exact Q.
Qed.
Definition sel_c (c : ascii) : bool := is_word c || is_space c || Ascii.eqb c "=".
Lemma sel_kind s : forallb sel_c s = true -> forallb kind_c s = true.
Proof. apply forallb_impl. unfold sel_c, kind_c. intros c. destruct (is_word c), (is_space c), (Ascii.eqb c "="); cbn; intros; rewrite ?orb_true_r; auto; discriminate. Qed.
Lemma blank_sel w : blank w -> forallb sel_c w = true.
Proof. apply forallb_impl. unfold sel_c. intros c ->. now rewrite orb_true_r. Qed.
Lemma word_sel w : forallb is_word w = true -> forallb sel_c w = true.
Proof. apply forallb_impl. unfold sel_c. now intros c ->. Qed.
Lemma alpha_words w : forallb is_alpha w = true -> forallb is_word w = true.
Proof. apply forallb_impl, alpha_word. Qed.
Lemma kind_solid k : kind_value k -> solid k.
Proof. intros (N & F & _). now apply solid_word. Qed.
Lemma kind_one a k b : blank a -> blank b -> kind_value k -> parse_kind_selector (L "(" ++ (a ++ k ++ b) ++ L ")") = Ok k.
Proof.
  intros A B K. assert (NE : ~ In "="%char (a ++ k ++ b)).
  { rewrite !in_app_iff. intros [I|[I|I]]; revert I; [apply (noin is_space)|apply (noin is_word)|apply (noin is_space)]; auto. apply K. }
  unfold parse_kind_selector. cbn [L list_ascii_of_string app].
  change ("("%char :: (a ++ k ++ b) ++ [")"%char]) with (("("%char :: a ++ k ++ b) ++ [")"%char]) at 1. rewrite last_snoc.
  cbn [Ascii.eqb Bool.eqb andb]. change ("("%char :: (a ++ k ++ b) ++ [")"%char]) with (L "(" ++ (a ++ k ++ b) ++ L ")"). rewrite inner_group.
  rewrite split_none by auto. rewrite strip_core by (auto; now apply kind_solid). cbn [bind]. now apply kind_fine.
Qed.
Lemma kind_two a kw b c k d : blank a -> blank b -> blank c -> blank d -> spells kw (L "kind") -> kind_value k ->
  parse_kind_selector (L "(" ++ (a ++ kw ++ b ++ L "=" ++ c ++ k ++ d) ++ L ")") = Ok k.
Proof.
  intros A B C D KW K. set (body := a ++ kw ++ b ++ L "=" ++ c ++ k ++ d).
  assert (SP : split_on "=" body = [a ++ kw ++ b; c ++ k ++ d]).
  { unfold body. replace (a ++ kw ++ b ++ L "=" ++ c ++ k ++ d) with ((a ++ kw ++ b) ++ "="%char :: c ++ k ++ d) by now rewrite <- !app_assoc.
    rewrite split_cat. rewrite !split_none; auto; rewrite !in_app_iff; intros [I|[I|I]]; revert I; try (apply (noin is_space); auto; fail).
    - apply (noin is_word); auto. apply K.
    - apply (noin is_alpha); auto. now apply (spells_alpha kw (L "kind")). }
  unfold parse_kind_selector. cbn [L list_ascii_of_string app].
  change ("("%char :: body ++ [")"%char]) with (("("%char :: body) ++ [")"%char]) at 1. rewrite last_snoc.
  cbn [Ascii.eqb Bool.eqb andb]. change ("("%char :: body ++ [")"%char]) with (L "(" ++ body ++ L ")"). rewrite inner_group, SP.
  rewrite !strip_core; auto; [|now apply kind_solid|apply (spells_solid kw (L "kind")); auto; discriminate].
  unfold spells in KW. rewrite KW. cbn [str_eqb]. change (str_eqb (L "kind") (L "kind")) with true. cbn [bind]. now apply kind_fine.
Qed.
Lemma kind_group_ok body r : body <> [] -> forallb kind_c body = true -> kind_group (L "(" ++ body ++ L ")" ++ r) = Some (L "(" ++ body ++ L ")").
Proof.
  intros N F. destruct (take_stop kind_c body (")"%char :: r) F eq_refl) as [T D].
  cbn [L list_ascii_of_string app kind_group Ascii.eqb Bool.eqb]. rewrite T, D. destruct body; [easy|reflexivity].
Qed.
Lemma paren_solid (body : str) : solid (L "(" ++ body ++ L ")").
Proof. apply (solid_two "(" ")" body); reflexivity. Qed.
Lemma intrinsic_group t w body r k : intrinsic_name t -> blank w -> body <> [] -> forallb sel_c body = true ->
  parse_kind_selector (L "(" ++ body ++ L ")") = Ok k ->
  forall line, strip line = t ++ w ++ L "(" ++ body ++ L ")" ++ r ->
  ftype_new line = Ok (Some (mkFT t (Some k) false (length t + length w + (length body + 2)))).
Proof.
  intros T W N F P line E. unfold ftype_new, itype_match. rewrite E, intrinsic_ok by auto.
  destruct (blank_head w (L "(" ++ body ++ L ")" ++ r) W eq_refl) as [-> ->].
  rewrite kind_group_ok by (auto; now apply sel_kind). cbv iota beta zeta.
  rewrite strip_solid by apply paren_solid. rewrite P. cbn [bind]. do 3 f_equal. rewrite !app_length. cbn. lia.
Qed.

(* ---- not intrinsic ---- *)
Lemma not_intrinsic t w r line : spells t w -> In w (map L ["type"; "class"; "character"]%string) -> strip line = t ++ r -> ftype_new line = Ok None.
Proof.
  intros H I E. unfold ftype_new, itype_match, intrinsic_match, dp_match. rewrite E.
  cbn [map] in I. destruct I as [<-|[<-|[<-|[]]]]; now repeat nomatch H.
Qed.
Lemma not_character t w r line : spells t w -> In w (map L ["type"; "class"]%string) -> strip line = t ++ r -> fchar_new line = Ok None.
Proof.
  intros H I E. unfold fchar_new, oldchar_match, char_match. rewrite E. destruct I as [<-|[<-|[]]]; now repeat nomatch H.
Qed.
(* ---- derived types ---- *)
Lemma type_decl_ok word t w a n b r must : spells t word -> blank w -> blank a -> blank b -> identifier n ->
  type_decl word must (t ++ w ++ L "(" ++ (a ++ n ++ b) ++ L ")" ++ r) = Some (n, length t + length w + 1 + length a + length n + length b + 1).
Proof.
  intros H W A B I. unfold type_decl. rewrite (after_ci_spells t word) by auto.
  destruct (blank_head w (L "(" ++ (a ++ n ++ b) ++ L ")" ++ r) W eq_refl) as [-> ->]. cbn [L list_ascii_of_string app Ascii.eqb Bool.eqb].
  replace ((a ++ n ++ b) ++ ")"%char :: r) with (a ++ n ++ b ++ ")"%char :: r) by now rewrite <- !app_assoc.
  destruct I as (c & u & -> & C & U).
  destruct (blank_head a ((c :: u) ++ b ++ ")"%char :: r) A (alpha_not_space c C)) as [-> ->]. cbn [app].
  rewrite C. change (c :: u ++ b ++ ")"%char :: r) with ((c :: u) ++ b ++ ")"%char :: r).
  destruct (take_stop is_word (c :: u) (b ++ ")"%char :: r)) as [-> ->].
  - cbn. now rewrite (alpha_word c C).
  - destruct b as [|d b]; [reflexivity|]. cbn. cbn in B. apply andb_true_iff in B as [B _]. destruct (is_word d) eqn:D; auto. apply word_not_space in D. congruence.
  - destruct (blank_head b (")"%char :: r) B eq_refl) as [-> ->]. reflexivity.
Qed.
(* ---- characters ---- *)
Definition len_c (c : ascii) : bool := is_alpha c || is_digit c || is_space c || Ascii.eqb c "=" || Ascii.eqb c "*" || Ascii.eqb c ":".
Lemma len_char c : len_c c = true -> char_c c = true /\ Ascii.eqb c "(" = false /\ Ascii.eqb c ")" = false /\ Ascii.eqb c "," = false.
Proof.
  intros H. assert (X : forall c, implb (len_c c) (char_c c && negb (Ascii.eqb c "(") && negb (Ascii.eqb c ")") && negb (Ascii.eqb c ",")) = true).
  { apply (every_char (fun c => implb (len_c c) (char_c c && negb (Ascii.eqb c "(") && negb (Ascii.eqb c ")") && negb (Ascii.eqb c ",")))). vm_compute. reflexivity. }
  specialize (X c). rewrite H in X. cbn [implb] in X. rewrite !andb_true_iff, !negb_true_iff in X. tauto.
Qed.
Lemma blank_len w : blank w -> forallb len_c w = true.
Proof. apply forallb_impl. unfold len_c. intros c ->. now rewrite orb_true_r. Qed.
Lemma alpha_len w : forallb is_alpha w = true -> forallb len_c w = true.
Proof. apply forallb_impl. unfold len_c. now intros c ->. Qed.
Lemma length_len l : length_value l -> forallb len_c l = true /\ solid l /\ len_token l = Ok l /\ ~ In "="%char l.
Proof.
  intros [->|[->|[[N D]|[I U]]]].
  - split; [reflexivity|]. split; [apply solid_chars; [easy|intros c [<-|[]]; reflexivity]|]. split; [reflexivity|]. intros [E|[]]; discriminate.
  - split; [reflexivity|]. split; [apply solid_chars; [easy|intros c [<-|[]]; reflexivity]|]. split; [reflexivity|]. intros [E|[]]; discriminate.
  - split; [revert D; apply forallb_impl; unfold len_c; intros c ->; now rewrite orb_true_r|].
    split; [apply solid_word; auto; revert D; apply forallb_impl, digit_word|]. split; [|now apply (noin is_digit)].
    unfold len_token. rewrite D. destruct l; [easy|]. cbn [is_nil negb andb]. now rewrite !orb_true_r.
  - destruct I as (c & t & -> & C & W). split; [|split; [apply ident_solid; exists c, t; auto|split]].
    + cbn [forallb]. unfold len_c at 1. rewrite C. cbn [orb andb]. rewrite forallb_forall in *. intros d I. specialize (W d I).
      unfold is_word in W. unfold len_c. destruct (Ascii.eqb_spec d "_") as [EU|]; [exfalso; apply U; right; now rewrite <- EU|]. rewrite orb_false_r in W. now rewrite W.
    + unfold len_token, is_id. rewrite C, W. cbn [andb]. now rewrite !orb_true_r.
    + cbn. intros [->|I]; [discriminate|]. revert I. now apply (noin is_word).
Qed.
Lemma char_group_ok body r c : body <> [] -> forallb len_c body = true -> opener c -> r = [] \/ r = [c] ->
  char_group (L "(" ++ body ++ L ")" ++ r) = Some (L "(" ++ body ++ L ")").
Proof.
  intros N F O R. cbn [L list_ascii_of_string app char_group Ascii.eqb Bool.eqb].
  assert (FB : forallb char_c (body ++ [")"%char]) = true).
  { rewrite forallb_app. cbn. rewrite andb_true_r. revert F. apply forallb_impl. intros d H. now apply len_char. }
  assert (D : forall p, (p = [] \/ p = [c]) -> dropwhile (fun d => negb (Ascii.eqb d ")")) (rev (body ++ ")"%char :: p)) = ")"%char :: rev body).
  { intros p [->| ->]; rewrite rev_app_distr; cbn; auto. destruct (opener_facts c O) as (_ & _ & -> & _). reflexivity. }
  assert (T : exists p, (p = [] \/ p = [c]) /\ takewhile char_c (body ++ ")"%char :: r) = body ++ ")"%char :: p).
  { replace (body ++ ")"%char :: r) with ((body ++ [")"%char]) ++ r) by now rewrite <- app_assoc. destruct R as [->| ->].
    - exists []. split; auto. destruct (take_stop char_c (body ++ [")"%char]) [] FB I) as [-> _]. reflexivity.
    - destruct (char_c c) eqn:E.
      + exists [c]. split; auto. rewrite <- (app_nil_r ((body ++ [")"%char]) ++ [c])). destruct (take_stop char_c ((body ++ [")"%char]) ++ [c]) []) as [-> _]; auto.
        * rewrite forallb_app, FB. cbn. now rewrite E.
        * now rewrite <- app_assoc.
      + exists []. split; auto. destruct (take_stop char_c (body ++ [")"%char]) [c] FB E) as [-> _]. reflexivity. }
  destruct T as (p & P & ->). rewrite (D p P). destruct (exists_last N) as (b' & x & EB). assert (RB : rev body = x :: rev b') by (rewrite EB; apply rev_app_distr).
  rewrite RB. do 2 f_equal. rewrite <- RB. cbn [rev]. now rewrite rev_involutive.
Qed.
Lemma character_group t w body r c l : spells t (L "character") -> blank w -> body <> [] -> forallb len_c body = true -> opener c -> r = [] \/ r = [c] ->
  ~ spells (firstn 4 (strip body)) (L "kind") -> len_select (strip body) true = Ok l ->
  forall line, strip line = t ++ w ++ L "(" ++ body ++ L ")" ++ r ->
  fchar_new line = Ok (Some (mkFT t (Some (L "len=" ++ l)) false (length t + length w + (length body + 2)))).
Proof.
  intros H W N F O R NK P line E. unfold fchar_new, oldchar_match, char_match. rewrite E. rewrite (after_ci_spells t _ _ H).
  destruct (blank_head w (L "(" ++ body ++ L ")" ++ r) W eq_refl) as [-> ->].
  rewrite (char_group_ok body r c) by auto. cbn [L list_ascii_of_string app Ascii.eqb Bool.eqb]. cbv iota beta zeta.
  change ("("%char :: body ++ [")"%char]) with (L "(" ++ body ++ L ")"). unfold char_selector. rewrite inner_group.
  rewrite split_none by (apply (noin len_c); auto). cbn [map].
  destruct (str_eqb (lower (firstn 4 (strip body))) (L "kind")) eqn:Q; [apply str_eqb_eq in Q; now exfalso|].
  rewrite P. cbn [bind fst snd given_kind]. assert (CK : char_kind (Some l) None = L "len=" ++ l) by (unfold char_kind; now rewrite app_nil_r). rewrite CK. do 3 f_equal. rewrite !app_length. cbn. lia.
Qed.

(* ---- all heads ---- *)
Lemma head_solid h T K d : head h T K d -> solid h.
Proof.
  assert (G : forall x y z, solid x -> solid (x ++ y ++ L "(" ++ z ++ L ")")).
  { intros x y z S. replace (x ++ y ++ L "(" ++ z ++ L ")") with (x ++ (y ++ L "(" ++ z) ++ L ")") by now rewrite <- !app_assoc.
    apply solid_app; auto. apply solid_chars; [easy|intros c [<-|[]]; reflexivity]. }
  assert (SP : forall t w, spells t w -> In w (map L ["type"; "class"; "character"]%string) -> solid t).
  { intros t w H I. apply (spells_solid t w H); destruct I as [<-|[<-|[<-|[]]]]; easy. }
  destruct 1.
  - now apply intrinsic_solid.
  - replace (a ++ k ++ b ++ L ")") with ((a ++ k ++ b) ++ L ")") by now rewrite <- !app_assoc. apply G. now apply intrinsic_solid.
  - replace (a ++ kw ++ b ++ L "=" ++ c ++ k ++ d ++ L ")") with ((a ++ kw ++ b ++ L "=" ++ c ++ k ++ d) ++ L ")") by now rewrite <- !app_assoc. apply G. now apply intrinsic_solid.
  - replace (a ++ n ++ b ++ L ")") with ((a ++ n ++ b) ++ L ")") by now rewrite <- !app_assoc. apply G. destruct H as [H|H]; apply (SP _ _ H); cbn; auto.
  - replace (a ++ l ++ b ++ L ")") with ((a ++ l ++ b) ++ L ")") by now rewrite <- !app_assoc. apply G. apply (SP _ _ H); cbn; auto.
  - replace (a ++ le ++ b ++ L "=" ++ c ++ l ++ d ++ L ")") with ((a ++ le ++ b ++ L "=" ++ c ++ l ++ d) ++ L ")") by now rewrite <- !app_assoc. apply G. apply (SP _ _ H); cbn; auto.
Qed.
Lemma factory_nobang line : ~ In "!"%char line -> ftype_factory line =
  (i <- ftype_new (cut_line line) ;;
   match i with Some t => Ok (Some t) | None =>
     c <- fchar_new (cut_line line) ;;
     match c with Some t => Ok (Some t) | None =>
       match type_match (cut_line line) with Some (n, k) => Ok (Some (mkFT n (Some n) true k))
       | None => match class_match (cut_line line) with Some (n, k) => Ok (Some (mkFT n (Some n) true k)) | None => Ok None end end end end).
Proof. intros N. unfold ftype_factory. apply has_c_not in N. now rewrite N. Qed.
Lemma type_free x : forallb type_c x = true -> ~ In "("%char x /\ ~ In ","%char x.
Proof. intros H. split; apply (noin type_c); auto. Qed.
Lemma group_cut x v body w c t : solid x -> forallb type_c x = true -> blank v -> ~ In "("%char body -> ~ In ")"%char body -> blank w -> opener c ->
  exists r, strip (cut_line (((x ++ v) ++ L "(" ++ body ++ L ")") ++ w ++ c :: t)) = x ++ v ++ L "(" ++ body ++ L ")" ++ r /\ (r = [] \/ r = [c]).
Proof.
  intros S X V A B W O. assert (Y : forallb type_c (x ++ v) = true) by (rewrite forallb_app, X; now apply blank_type).
  destruct (type_free _ Y) as [Y1 Y2]. destruct S as [(y & z & E & F) _].
  destruct (cut_strip (x ++ v) body w c t) as (r & G & R); auto. { exists y, (z ++ v). rewrite E. auto. }
  exists r. split; auto. rewrite G. now rewrite <- !app_assoc.
Qed.
Lemma head_ok h T K ddt : head h T K ddt -> forall w c t, blank w -> opener c -> ~ In "!"%char (h ++ w ++ c :: t) ->
  exists n, ftype_factory (h ++ w ++ c :: t) = Ok (Some (mkFT T K ddt n)) /\ length h <= n /\ n <= length h + length w.
Proof.
  intros H w c0 t W O NB. rewrite factory_nobang by auto. clear NB. destruct H.
  - (* no parentheses *)
    assert (X : forallb type_c (t0 ++ w) = true) by (rewrite forallb_app, (intrinsic_chars t0 H); now apply blank_type).
    destruct (type_free _ X) as [X1 X2]. rewrite app_assoc.
    destruct (cut_plain (t0 ++ w) c0 t X1 X2 O) as [[-> ->]|(t' & ->)].
    + unfold ftype_new, itype_match. rewrite strip_blank_r by auto. rewrite (strip_solid t0) by now apply intrinsic_solid.
      pose proof (intrinsic_ok t0 [] H) as IO. rewrite app_nil_r in IO. rewrite IO. cbn. eexists. split; [reflexivity|]. lia.
    + unfold ftype_new, itype_match. destruct (intrinsic_solid t0 H) as [(y & z & E & Y) _].
      assert (ST : strip ((t0 ++ w) ++ c0 :: t') = t0 ++ w ++ c0 :: rstrip t').
      { unfold strip. rewrite E. cbn [app]. rewrite lstrip_head by auto.
        change (y :: (z ++ w) ++ c0 :: t') with ((y :: z ++ w) ++ c0 :: t'). rewrite rstrip_after by (apply opener_facts; auto). cbn. now rewrite <- app_assoc. }
      rewrite ST, intrinsic_ok by auto. destruct (blank_head w (c0 :: rstrip t') W) as [-> ->]; [apply opener_facts; auto|].
      cbn [kind_group]. destruct (opener_facts c0 O) as (_ & -> & _). cbn [bind]. eexists. split; [reflexivity|]. lia.
  - (* (kind) *)
    assert (FB : forallb sel_c (a ++ k ++ b) = true) by (rewrite !forallb_app, (blank_sel a), (blank_sel b), (word_sel k); auto; apply H3).
    replace (t0 ++ w0 ++ L "(" ++ a ++ k ++ b ++ L ")") with ((t0 ++ w0) ++ L "(" ++ (a ++ k ++ b) ++ L ")") by now rewrite <- !app_assoc.
    destruct (group_cut t0 w0 (a ++ k ++ b) w c0 t) as (r & E & R); auto; [now apply intrinsic_solid|now apply intrinsic_chars|apply (noin sel_c); auto|apply (noin sel_c); auto|].
    erewrite (intrinsic_group t0 w0 (a ++ k ++ b) r k H H0) by (try apply kind_one; eauto; destruct H3 as (N & _); intros Z; apply app_eq_nil in Z as [_ Z]; apply app_eq_nil in Z as [Z _]; auto).
    cbn [bind]. eexists. split; [reflexivity|]. lens.
  - (* (kind=) *)
    set (body := a ++ kw ++ b ++ L "=" ++ c ++ k ++ d).
    assert (FB : forallb sel_c body = true).
    { unfold body. rewrite !forallb_app, (blank_sel a), (blank_sel b), (blank_sel c), (blank_sel d), (word_sel k); auto; [|apply H6].
      rewrite (word_sel kw); auto. apply alpha_words. now apply (spells_alpha kw (L "kind")). }
    replace (t0 ++ w0 ++ L "(" ++ a ++ kw ++ b ++ L "=" ++ c ++ k ++ d ++ L ")") with ((t0 ++ w0) ++ L "(" ++ body ++ L ")") by (unfold body; now rewrite <- !app_assoc).
    destruct (group_cut t0 w0 body w c0 t) as (r & E & R); auto; [now apply intrinsic_solid|now apply intrinsic_chars|apply (noin sel_c); auto|apply (noin sel_c); auto|].
    erewrite (intrinsic_group t0 w0 body r k H H0) by (try apply kind_two; eauto; unfold body; intros Z; apply (f_equal (@length ascii)) in Z; rewrite !app_length in Z; cbn in Z; lia).
    cbn [bind]. eexists. split; [reflexivity|]. lens.
  - (* derived *)
    assert (WN : forallb sel_c (a ++ n ++ b) = true) by (rewrite !forallb_app, (blank_sel a), (blank_sel b), (word_sel n); auto; now apply ident_word).
    replace (t0 ++ w0 ++ L "(" ++ a ++ n ++ b ++ L ")") with ((t0 ++ w0) ++ L "(" ++ (a ++ n ++ b) ++ L ")") by now rewrite <- !app_assoc.
    assert (TS : solid t0 /\ forallb type_c t0 = true).
    { destruct H as [H|H]; (split; [apply (spells_solid t0 _ H); easy|apply alpha_type; now apply (spells_alpha t0 _ H)]). }
    destruct TS as [TS TC].
    destruct (group_cut t0 w0 (a ++ n ++ b) w c0 t) as (r & E & R); auto; [apply (noin sel_c); auto|apply (noin sel_c); auto|].
    destruct H as [H|H].
    + rewrite (not_intrinsic t0 _ _ _ H ltac:(cbn; auto) E). cbn [bind]. rewrite (not_character t0 _ _ _ H ltac:(cbn; auto) E). cbn [bind].
      unfold type_match. rewrite E, type_decl_ok by auto. eexists. split; [reflexivity|]. lens.
    + rewrite (not_intrinsic t0 _ _ _ H ltac:(cbn; auto) E). cbn [bind]. rewrite (not_character t0 _ _ _ H ltac:(cbn; auto) E). cbn [bind].
      unfold type_match. rewrite E. unfold type_decl at 1. nomatch H. unfold class_match. rewrite E, type_decl_ok by auto.
      eexists. split; [reflexivity|]. lens.
  - (* (len) *)
    destruct (length_len l H3) as (LL & LS & LT & LE).
    assert (FB : forallb len_c (a ++ l ++ b) = true) by (rewrite !forallb_app, (blank_len a), (blank_len b), LL; auto).
    replace (t0 ++ w0 ++ L "(" ++ a ++ l ++ b ++ L ")") with ((t0 ++ w0) ++ L "(" ++ (a ++ l ++ b) ++ L ")") by now rewrite <- !app_assoc.
    destruct (group_cut t0 w0 (a ++ l ++ b) w c0 t) as (r & E & R); auto; try (apply (noin len_c); auto; fail).
    { apply (spells_solid t0 _ H); easy. } { apply alpha_type. now apply (spells_alpha t0 _ H). }
    rewrite (not_intrinsic t0 _ _ _ H ltac:(cbn; auto) E). cbn [bind].
    erewrite (character_group t0 w0 (a ++ l ++ b) r c0 l H H0); eauto.
    + cbn [bind]. eexists. split; [reflexivity|]. lens.
    + intros Z. apply app_eq_nil in Z as [_ Z]. apply app_eq_nil in Z as [Z _]. subst. now destruct LS as [(? & ? & ? & _) _].
    + now rewrite strip_core.
    + rewrite strip_core by auto. unfold len_select. rewrite split_none by auto. cbn [map]. now rewrite strip_solid.
  - (* (len=) *)
    destruct (length_len l H6) as (LL & LS & LT & LE). set (body := a ++ le ++ b ++ L "=" ++ c ++ l ++ d).
    assert (LA : forallb is_alpha le = true) by now apply (spells_alpha le (L "len")).
    assert (FB : forallb len_c body = true) by (unfold body; rewrite !forallb_app, (blank_len a), (blank_len b), (blank_len c), (blank_len d), LL, (alpha_len le); auto).
    replace (t0 ++ w0 ++ L "(" ++ a ++ le ++ b ++ L "=" ++ c ++ l ++ d ++ L ")") with ((t0 ++ w0) ++ L "(" ++ body ++ L ")") by (unfold body; now rewrite <- !app_assoc).
    destruct (group_cut t0 w0 body w c0 t) as (r & E & R); auto; try (apply (noin len_c); auto; fail).
    { apply (spells_solid t0 _ H); easy. } { apply alpha_type. now apply (spells_alpha t0 _ H). }
    rewrite (not_intrinsic t0 _ _ _ H ltac:(cbn; auto) E). cbn [bind].
    assert (LS' : solid le) by (apply (spells_solid le _ H5); easy).
    assert (SB : strip body = le ++ (b ++ L "=" ++ c) ++ l).
    { replace body with (a ++ (le ++ (b ++ L "=" ++ c) ++ l) ++ d) by (unfold body; now rewrite <- !app_assoc). apply strip_core; auto. now apply solid_app. }
    erewrite (character_group t0 w0 body r c0 l H H0); eauto.
    + cbn [bind]. eexists. split; [reflexivity|]. lens.
    + unfold body. intros Z. apply (f_equal (@length ascii)) in Z. rewrite !app_length in Z. cbn in Z. lia.
    + rewrite SB. unfold spells in *. intros Z. assert (LN : length le = 3) by (rewrite <- lower_len, H5; reflexivity).
      rewrite firstn_app, firstn_all2 in Z by lia. rewrite lower_app, H5 in Z. discriminate Z.
    + rewrite SB. unfold len_select. replace (le ++ (b ++ L "=" ++ c) ++ l) with ((le ++ b) ++ "="%char :: c ++ l) by now rewrite <- !app_assoc.
      rewrite split_cat, !split_none.
      * cbn [map app]. rewrite (strip_blank_r le b), (strip_blank_l c l), !strip_solid by auto. unfold spells in H5. now rewrite H5.
      * rewrite in_app_iff. intros [I|I]; [|auto]. revert I. now apply (noin is_space).
      * rewrite in_app_iff. intros [I|I]; revert I; [now apply (noin is_alpha)|now apply (noin is_space)].
Qed.
