(* EnvProps.v: C36 definitions and kinds, C42 schema versions. *)
From Verif Require Import PyStr PyNum DictModel DictProofs EnvModel EnvSpec CheckProofs LineProofs.
Open Scope nat_scope.
Open Scope list_scope.

(* ---- C36 ---- *)
Lemma split_first_some c s a b : split_first c s = (a, Some b) -> s = a ++ c :: b /\ ~ In c a.
Proof.
  revert a b. induction s as [|d s IH]; intros a b H; cbn [split_first] in H; [discriminate|].
  destruct (Ascii.eqb_spec d c) as [->|N]; [injection H as <- <-; split; auto|].
  destruct (split_first c s) as [a' b'] eqn:E. injection H as <- ->. destruct (IH _ _ eq_refl) as [-> NI]. split; auto. intros [X|X]; auto.
Qed.
Lemma split_first_none c s a : split_first c s = (a, None) -> s = a /\ ~ In c a.
Proof.
  revert a. induction s as [|d s IH]; intros a H; cbn [split_first] in H; [injection H as <-; auto|].
  destruct (Ascii.eqb_spec d c) as [->|N]; [discriminate|].
  destruct (split_first c s) as [a' b'] eqn:E. injection H as <- ->. destruct (IH _ eq_refl) as [-> NI]. split; auto. intros [X|X]; auto.
Qed.
Lemma split_first_at c a b : ~ In c a -> split_first c (a ++ c :: b) = (a, Some b).
Proof.
  induction a as [|d a IH]; intros N; cbn [app split_first]; [now rewrite Ascii.eqb_refl|].
  destruct (Ascii.eqb_spec d c) as [->|]; [exfalso; apply N; now left|]. rewrite IH; auto. intros I. apply N. now right.
Qed.
Lemma split_first_no c a : ~ In c a -> split_first c a = (a, None).
Proof.
  induction a as [|d a IH]; intros N; cbn [app split_first]; auto.
  destruct (Ascii.eqb_spec d c) as [->|]; [exfalso; apply N; now left|]. rewrite IH; auto. intros I. apply N. now right.
Qed.
Definition key_of (key : str) : str := match after_prefix (L "-D") key with Some k => k | None => key end.
Lemma names_key t k : names t k <-> key_of (strip t) = k.
Proof.
  unfold names, key_of. destruct (after_prefix (L "-D") (strip t)) as [r|] eqn:E.
  - apply after_prefix_some in E. rewrite E. split.
    + intros [X|[X Y]]; [now apply app_inv_head in X|]. exfalso. apply (Y r). now symmetry.
    + intros ->. now left.
  - split.
    + intros [X|[X _]]; auto. rewrite X, after_prefix_app in E. discriminate.
    + intros <-. right. split; auto. intros t' X. rewrite X, after_prefix_app in E. discriminate.
Qed.
Lemma defines_iff i k v : defines i k v <-> preproc_item i = (k, v).
Proof.
  unfold preproc_item. destruct (split_first "=" i) as [a [b|]] eqn:E.
  - apply split_first_some in E as [-> N]. fold (key_of (strip a)). cbn [option_map]. split.
    + intros H. inversion H as [t k' NI NM E1 E2 E3|t v' k' NI NM E1 E2 E3]; subst.
      * exfalso. apply NI. apply in_or_app. right. now left.
      * assert (X : split_first "=" (t ++ "="%char :: v') = split_first "=" (a ++ "="%char :: b)) by (now rewrite E1).
        rewrite !split_first_at in X by auto. injection X as -> ->. apply names_key in NM. now rewrite NM.
    + intros [= <- <-]. constructor; auto. now apply names_key.
  - apply split_first_none in E as [-> N]. fold (key_of (strip a)). cbn [option_map]. split.
    + intros H. inversion H as [t k' NI NM E1 E2 E3|t v' k' NI NM E1 E2 E3]; subst.
      * apply names_key in NM. now rewrite NM.
      * exfalso. apply N. apply in_or_app. right. now left.
    + intros [= <- <-]. constructor; auto. now apply names_key.
Qed.
Lemma fold_defs items : forall d k, get k (fold_left (fun d i => let '(k, v) := preproc_item i in set k v d) items d) =
  match fold_right (fun i acc => match acc with Some x => Some x | None => let '(k', v) := preproc_item i in if str_eqb k k' then Some v else None end) None items with
  | Some v => Some v | None => get k d end.
Proof.
  induction items as [|i items IH]; intros d k; cbn [fold_left fold_right]; auto. rewrite IH.
  destruct (fold_right _ None items) as [v|]; auto. destruct (preproc_item i) as [k' v']. rewrite get_set. destruct (str_eqb k k'); auto.
Qed.
Definition pick (k : str) (i : str) (acc : option (option str)) : option (option str) :=
  match acc with Some x => Some x | None => let '(k', v) := preproc_item i in if str_eqb k k' then Some v else None end.
Lemma pick_none k items : fold_right (pick k) None items = None <-> forall j w, In j items -> ~ defines j k w.
Proof.
  induction items as [|i items IH]; cbn [fold_right]; [split; auto; intros _ j w []|]. unfold pick at 1.
  destruct (fold_right (pick k) None items) as [x|].
  - split; [discriminate|]. intros H. exfalso. assert (X : Some x = None); [|discriminate X]. apply IH. intros j w I. apply H. now right.
  - destruct (preproc_item i) as [k' v] eqn:E. destruct (str_eqb k k') eqn:Q.
    + split; [discriminate|]. intros H. exfalso. apply (H i v); [now left|]. apply defines_iff. rewrite E. apply str_eqb_eq in Q. now subst.
    + split; auto. intros _ j w [<-|I]; [|now apply IH]. intros D. apply defines_iff in D. rewrite E in D. injection D as -> _. now rewrite str_eqb_refl in Q.
Qed.
Lemma pick_some k items : forall v, fold_right (pick k) None items = Some v <-> last_definition items k v.
Proof.
  induction items as [|i items IH]; intros v; cbn [fold_right].
  - split; [discriminate|]. intros (a & i & b & E & _). destruct a; discriminate E.
  - unfold pick at 1. destruct (fold_right (pick k) None items) as [x|] eqn:E.
    + split.
      * intros [= ->]. destruct (proj1 (IH v) eq_refl) as (a & j & b & -> & D & N). exists (i :: a), j, b. auto.
      * intros (a & j & b & EQ & D & N). destruct a as [|i' a]; cbn in EQ; injection EQ as <- EQ.
        -- subst b. exfalso. apply pick_none in N. rewrite E in N. discriminate N.
        -- apply IH. exists a, j, b. auto.
    + assert (N := proj1 (pick_none k items) E). destruct (preproc_item i) as [k' w] eqn:P. split.
      * destruct (str_eqb k k') eqn:Q; [|discriminate]. intros [= ->]. exists [], i, items. split; auto. split; auto.
        apply defines_iff. apply str_eqb_eq in Q. now subst.
      * intros (a & j & b & EQ & D & _). destruct a as [|i' a]; cbn in EQ; injection EQ as <- EQ.
        -- apply defines_iff in D. rewrite P in D. injection D as -> ->. now rewrite str_eqb_refl.
        -- exfalso. apply (N j v); auto. subst items. apply in_or_app. right. now left.
Qed.

(* every item defines exactly one name, and the last definition of a name is its value *)
Theorem C36_definitions items :
  (forall i, exists! kv, defines i (fst kv) (snd kv)) /\
  forall k v, get k (preproc_defs (PList items)) = Some v <-> last_definition items k v.
Proof.
  split.
  - intros i. exists (preproc_item i). split; [apply defines_iff; now destruct (preproc_item i)|].
    intros [k v] D. apply defines_iff in D. now rewrite D.
  - intros k v. unfold preproc_defs. cbn [preproc_list]. rewrite fold_defs. change (fun i acc => _) with (pick k).
    rewrite <- pick_some. destruct (fold_right (pick k) None items); [reflexivity|]. cbn. split; discriminate.
Qed.
Print Assumptions C36_definitions.
Example C36_definitions_ex :
  preproc_defs (PList [L "-DMPI"; L "N = 3"; L "-DN=a=b"]) = [(L "MPI", None); (L "N", Some (L "a=b"))].
Proof. reflexivity. Qed.

(* one string with commas, or with blanks, means the same as the list of its parts *)
Definition clean_item (i : str) : Prop := i <> [] /\ (forall c, In c i -> is_space c = false) /\ ~ In ","%char i.
Lemma has_comma_in s : has_comma s = true <-> In ","%char s.
Proof. unfold has_comma. rewrite existsb_exists. split; [intros (c & I & E); apply Ascii.eqb_eq in E; now subst|]. intros I. exists ","%char. split; auto. Qed.
Lemma map_strip_clean items : (forall i, In i items -> clean_item i) -> map strip items = items.
Proof.
  induction items as [|i items IH]; intros H; cbn [map]; auto. rewrite IH by (intros; apply H; now right).
  rewrite strip_inner; auto. apply (H i). now left.
Qed.
Theorem C36_list_forms items : (forall i, In i items -> clean_item i) ->
  (2 <= length items -> preproc_defs (PStr (join (L ",") items)) = preproc_defs (PList items)) /\
  (items <> [L "UNSET"] -> preproc_defs (PStr (join (L " ") items)) = preproc_defs (PList items)) /\
  preproc_defs PNone = [] /\ preproc_defs (PStr []) = [] /\ preproc_defs (PStr (L "UNSET")) = [].
Proof.
  intros H. split; [|split; [|repeat split]].
  - intros LE. unfold preproc_defs. f_equal. cbn [preproc_list].
    destruct items as [|x [|y r]]; cbn [length] in LE; try lia.
    assert (I : In ","%char (join (L ",") (x :: y :: r))) by (cbn [join]; apply in_or_app; right; now left).
    assert (E0 : nonempty (join (L ",") (x :: y :: r)) = true) by (destruct (join (L ",") (x :: y :: r)); [destruct I|reflexivity]).
    assert (E1 : str_eqb (join (L ",") (x :: y :: r)) (L "UNSET") = false).
    { apply str_eqb_neq. intros E. rewrite E in I. cbn in I. decompose [or] I; try discriminate; auto. }
    rewrite E0, E1. cbn [negb orb]. rewrite (proj2 (has_comma_in _) I).
    change (L ",") with [","%char]. rewrite split_join; [now apply map_strip_clean|discriminate|]. intros p P. now apply H.
  - intros NU. unfold preproc_defs. f_equal. cbn [preproc_list].
    destruct items as [|x r] eqn:EI; [reflexivity|]. rewrite <- EI in *.
    assert (NE : nonempty (join (L " ") items) = true).
    { destruct (H x) as (N & _); [rewrite EI; now left|]. rewrite EI. destruct x as [|c x]; [now elim N|]. now destruct r. }
    assert (SJ : split_on " " (join (L " ") items) = items).
    { apply split_join; [rewrite EI; discriminate|]. intros p P I. destruct (H p P) as (_ & S & _). now specialize (S _ I). }
    assert (E1 : str_eqb (join (L " ") items) (L "UNSET") = false).
    { apply str_eqb_neq. intros E. rewrite E in SJ. apply NU. rewrite <- SJ. reflexivity. }
    assert (E2 : has_comma (join (L " ") items) = false).
    { destruct (has_comma _) eqn:E; auto. apply has_comma_in in E. apply join_in in E as [I|(p & P & I)].
      - destruct I as [I|[]]; discriminate I.
      - exfalso. now apply (H p P). }
    rewrite NE, E1, E2. cbn [negb orb]. rewrite SJ.
    assert (FI : List.filter nonempty items = items).
    { clear -H. induction items as [|i items IH]; cbn [List.filter]; auto. destruct (H i) as (N & _); [now left|].
      destruct i; [now elim N|]. cbn [nonempty]. rewrite IH; auto. intros; apply H; now right. }
    rewrite FI. now apply map_strip_clean.
Qed.
Print Assumptions C36_list_forms.
Example C36_list_forms_ex : preproc_defs (PStr (L "-DMPI,-DN=3")) = preproc_defs (PStr (L "-DMPI -DN=3")).
Proof. reflexivity. Qed.

(* kinds *)
Definition is_kind (n s : str) (text : str) : Prop := kind_spec (strip text) n s.
Definition last_kind (kinds : list str) (n s : str) : Prop :=
  exists a i b, kinds = a ++ i :: b /\ is_kind n s i /\ forall j t, In j b -> ~ is_kind n t j.
Definition kind_parts (text : str) : option (str * str) :=
  match map strip (split_on "=" (strip text)) with [n; s] => Some (n, s) | _ => None end.
Lemma kind_parts_iff text n s : is_kind n s text <-> kind_parts text = Some (n, s).
Proof.
  unfold is_kind, kind_spec, kind_parts. split.
  - intros (a & b & -> & A & B & -> & ->). rewrite split_app by auto. rewrite (split_none _ _ B). reflexivity.
  - intros H. assert (J := join_split "="%char (strip text)). assert (NS := split_on_no_sep "="%char (strip text)).
    destruct (split_on "=" (strip text)) as [|a [|b [|c r]]]; try discriminate H. cbn [map] in H. injection H as <- <-.
    exists a, b. split; [now rewrite <- J|]. split; [apply NS; now left|]. split; [apply NS; right; now left|]. auto.
Qed.
Lemma kind_step_parts d bad t : kind_step (d, bad) t = match kind_parts t with Some (n, s) => (set n s d, bad) | None => (d, true) end.
Proof. unfold kind_step, kind_parts. destruct (map strip _) as [|a [|b [|c r]]]; reflexivity. Qed.
Lemma kind_fold_bad kinds : forall d bad, snd (fold_left kind_step kinds (d, bad)) = true <-> bad = true \/ exists t, In t kinds /\ kind_parts t = None.
Proof.
  induction kinds as [|t kinds IH]; intros d bad; cbn [fold_left].
  - cbn [snd]. split; auto. intros [E|(t & [] & _)]; auto.
  - rewrite kind_step_parts. destruct (kind_parts t) as [[n s]|] eqn:E; rewrite IH.
    + split; (intros [X|(u & I & P)]; [now left|right]); [exists u; split; auto; now right|].
      destruct I as [->|I]; [congruence|]. now exists u.
    + split; auto. intros _. right. exists t. split; auto. now left.
Qed.
Lemma kind_fold_get kinds : forall d bad n, get n (fst (fold_left kind_step kinds (d, bad))) =
  match fold_right (fun t acc => match acc with Some x => Some x | None => match kind_parts t with Some (n', s) => if str_eqb n n' then Some s else None | None => None end end) None kinds with
  | Some s => Some s | None => get n d end.
Proof.
  induction kinds as [|t kinds IH]; intros d bad n; cbn [fold_left fold_right]; auto. rewrite kind_step_parts.
  destruct (kind_parts t) as [[n' s]|]; rewrite IH; destruct (fold_right _ None kinds); auto.
  rewrite get_set. destruct (str_eqb n n'); auto.
Qed.
Lemma kind_none n kinds :
  fold_right (fun t acc => match acc with Some x => Some x | None => match kind_parts t with Some (n', s) => if str_eqb n n' then Some s else None | None => None end end) None kinds = None
  <-> forall j t, In j kinds -> ~ is_kind n t j.
Proof.
  set (f := fun t acc => _). induction kinds as [|i items IH]; cbn [fold_right]; [split; auto; intros _ j w []|]. unfold f at 1.
  destruct (fold_right f None items) as [x|].
  - split; [discriminate|]. intros H. exfalso. assert (X : Some x = None); [|discriminate X]. apply IH. intros j w I. apply H. now right.
  - destruct (kind_parts i) as [[k' v]|] eqn:E.
    + destruct (str_eqb n k') eqn:Q.
      * split; [discriminate|]. intros H. exfalso. apply (H i v); [now left|]. apply kind_parts_iff. rewrite E. apply str_eqb_eq in Q. now subst.
      * split; auto. intros _ j w [<-|I]; [|now apply IH]. intros D. apply kind_parts_iff in D. rewrite E in D. injection D as -> _. now rewrite str_eqb_refl in Q.
    + split; auto. intros _ j w [<-|I]; [|now apply IH]. intros D. apply kind_parts_iff in D. congruence.
Qed.
Lemma kind_some n kinds : forall s,
  fold_right (fun t acc => match acc with Some x => Some x | None => match kind_parts t with Some (n', s) => if str_eqb n n' then Some s else None | None => None end end) None kinds = Some s
  <-> last_kind kinds n s.
Proof.
  assert (KN := kind_none n). set (f := fun t acc => _) in *. induction kinds as [|i items IH]; intros v; cbn [fold_right].
  - split; [discriminate|]. intros (a & i & b & E & _). destruct a; discriminate E.
  - unfold f at 1. destruct (fold_right f None items) as [x|] eqn:E.
    + split.
      * intros [= ->]. destruct (proj1 (IH v) eq_refl) as (a & j & b & -> & D & N). exists (i :: a), j, b. auto.
      * intros (a & j & b & EQ & D & N). destruct a as [|i' a]; cbn in EQ; injection EQ as <- EQ.
        -- subst b. exfalso. apply KN in N. rewrite E in N. discriminate N.
        -- apply IH. exists a, j, b. auto.
    + assert (N := proj1 (KN items) E). split.
      * destruct (kind_parts i) as [[k' w]|] eqn:P; [|discriminate]. destruct (str_eqb n k') eqn:Q; [|discriminate]. intros [= ->]. exists [], i, items. split; auto. split; auto.
        apply kind_parts_iff. apply str_eqb_eq in Q. now subst.
      * intros (a & j & b & EQ & D & _). destruct a as [|i' a]; cbn in EQ; injection EQ as <- EQ.
        -- apply kind_parts_iff in D. rewrite D. now rewrite str_eqb_refl.
        -- exfalso. apply (N j v); auto. subst items. apply in_or_app. right. now left.
Qed.

(* a kind argument that is not NAME=SPEC is an error and nothing else is; otherwise the last
   SPEC given to a name is its value, kind_phys is REAL64 unless given, and no other name is defined *)
Theorem C36_kinds arg kinds :
  (env_init arg kinds = Raise "ValueError" <-> exists t, In t kinds /\ ~ exists n s, is_kind n s t) /\
  forall defs kd, env_init arg kinds = Ok (defs, kd) ->
    defs = preproc_defs arg /\
    forall n s, get n kd = Some s <->
      last_kind kinds n s \/ (n = L "kind_phys" /\ s = L "REAL64" /\ forall t, ~ last_kind kinds n t).
Proof.
  assert (B := kind_fold_bad kinds [] false). assert (G := kind_fold_get kinds [] false).
  unfold env_init. destruct (fold_left kind_step kinds ([], false)) as [kd0 bad]. cbn [fst snd] in B, G. split.
  - transitivity (bad = true); [destruct bad; split; auto; discriminate|]. rewrite B. split.
    + intros [X|(t & I & P)]; [discriminate|]. exists t. split; auto. intros (n & s & K). apply kind_parts_iff in K. congruence.
    + intros (t & I & N). right. exists t. split; auto. destruct (kind_parts t) as [[n s]|] eqn:E; auto. exfalso. apply N. exists n, s. now apply kind_parts_iff.
  - intros defs kd. destruct bad; [discriminate|]. intros [= <- <-]. split; auto.
    assert (G' : forall n s, get n kd0 = Some s <-> last_kind kinds n s).
    { intros n s. rewrite G, <- kind_some. destruct (fold_right _ None kinds); [reflexivity|]. cbn. split; discriminate. }
    assert (G0 : forall n, get n kd0 = None <-> forall t, ~ last_kind kinds n t).
    { intros n. split; [intros E t K; apply G' in K; congruence|]. intros N. destruct (get n kd0) as [s|] eqn:E; auto. exfalso. apply (N s). now apply G'. }
    intros n s. unfold with_default. destruct (get (L "kind_phys") kd0) as [p|] eqn:P.
    + rewrite G'. split; auto. intros [K|(-> & _ & N)]; auto. exfalso. apply (N p). now apply G'.
    + rewrite get_set. destruct (str_eqb n (L "kind_phys")) eqn:Q.
      * apply str_eqb_eq in Q. subst n. assert (N := proj1 (G0 _) P). split.
        -- intros [= <-]. right. auto.
        -- intros [K|(_ & -> & _)]; auto. exfalso. now apply (N s).
      * rewrite G'. split; auto. intros [K|(-> & _)]; auto. now rewrite str_eqb_refl in Q.
Qed.
Print Assumptions C36_kinds.
Example C36_kinds_ex : env_init PNone [L "kind_dyn = REAL32"; L "kind_dyn=REAL64"] = Ok ([], [(L "kind_dyn", L "REAL64"); (L "kind_phys", L "REAL64")]).
Proof. reflexivity. Qed.
Example C36_kinds_ex2 : env_init PNone [L "kind_dyn"] = Raise "ValueError". Proof. reflexivity. Qed.

(* finding: no definition is ever refused, an item without a name defines the empty name *)
Theorem C36_finding_malformed :
  (forall arg kinds, (forall t, In t kinds -> exists n s, is_kind n s t) -> exists r, env_init arg kinds = Ok r) /\
  preproc_defs (PStr (L "-DMPI,")) = [(L "MPI", None); ([], None)] /\
  preproc_defs (PList [L "=3"]) = [([], Some (L "3"))] /\ preproc_defs (PList [L "-D"]) = [([], None)].
Proof.
  split; [|repeat split]. intros arg kinds H. destruct (env_init arg kinds) as [r|e] eqn:E; [now exists r|].
  assert (e = "ValueError"%string) by (unfold env_init in E; destruct (fold_left _ _ _) as [? []]; congruence). subst e.
  apply C36_kinds in E as (t & I & N). elim N. now apply H.
Qed.
Print Assumptions C36_finding_malformed.

(* ---- C42 ---- *)
Lemma dv_app s : forall acc z t, digits_val acc s = Some z -> digits_val acc (s ++ t) = digits_val z t.
Proof.
  induction s as [|c s IH]; intros acc z t H; cbn [digits_val app] in *; [now injection H as ->|].
  destruct (is_digit c); [now apply IH|]. destruct (Ascii.eqb c "_"); [|discriminate].
  destruct s as [|d s]; [discriminate|]. cbn [app]. destruct (is_digit d) eqn:D; [|discriminate].
  apply (IH acc z t) in H. exact H.
Qed.
Lemma digit_of_iff c d : digit_of c d <-> is_digit c = true /\ d = Z.of_nat (code c - 48).
Proof.
  split.
  - intros (n & LE & -> & ->). do 10 (destruct n as [|n]; [now split|]). lia.
  - intros (D & ->). exists (code c - 48). unfold is_digit, in_range in D. apply andb_true_iff in D as [A B]. apply Nat.leb_le in A, B.
    split; [lia|]. split; auto. replace (48 + (code c - 48)) with (code c) by lia. symmetry. apply ascii_nat_embedding.
Qed.
Lemma digits_complete s z : digits s z -> (exists c t, s = c :: t /\ is_digit c = true) /\ digits_val 0 s = Some z.
Proof.
  induction 1 as [c d D|s z c d _ [(c0 & t & -> & D0) IH] D|s z c d _ [(c0 & t & -> & D0) IH] D]; apply digit_of_iff in D as [D ->].
  - split; [now exists c, []|]. cbn. now rewrite D.
  - split; [now exists c0, (t ++ [c])|]. rewrite (dv_app _ _ _ _ IH). cbn [digits_val]. rewrite D. f_equal. lia.
  - split; [now exists c0, (t ++ ["_"%char; c])|]. rewrite (dv_app _ _ _ _ IH). cbn [digits_val].
    change (is_digit "_") with false. cbn iota. rewrite Ascii.eqb_refl, D. f_equal. lia.
Qed.
Lemma digits_sound n : forall s p a z, length s <= n -> digits p a -> digits_val a s = Some z -> digits (p ++ s) z.
Proof.
  induction n as [|n IH]; intros s p a z LE P H; (destruct s as [|c s]; cbn [digits_val] in H; [injection H as <-; now rewrite app_nil_r|]); cbn [length] in LE; [lia|].
  destruct (is_digit c) eqn:D.
  - change (c :: s) with ([c] ++ s). rewrite app_assoc. eapply IH; [lia| |exact H].
    replace (a * 10 + Z.of_nat (code c - 48))%Z with (10 * a + Z.of_nat (code c - 48))%Z by lia. apply digits_more; auto. apply digit_of_iff. auto.
  - destruct (Ascii.eqb_spec c "_") as [->|]; [|discriminate]. destruct s as [|d s]; [discriminate|]. destruct (is_digit d) eqn:D2; [|discriminate].
    cbn [digits_val] in H. rewrite D2 in H. change ("_"%char :: d :: s) with (["_"%char; d] ++ s). rewrite app_assoc. cbn [length] in LE. eapply IH; [lia| |exact H].
    replace (a * 10 + Z.of_nat (code d - 48))%Z with (10 * a + Z.of_nat (code d - 48))%Z by lia. apply digits_under; auto. apply digit_of_iff. auto.
Qed.
Lemma unsigned_digits s z : unsigned_val s = Some z <-> digits s z.
Proof.
  split.
  - destruct s as [|c s]; [discriminate|]. cbn [unsigned_val]. destruct (is_digit c) eqn:D; [|discriminate]. cbn [digits_val]. rewrite D.
    intros H. apply (digits_sound (length s) s [c] (0 * 10 + Z.of_nat (code c - 48))%Z); auto. apply digits_one. apply digit_of_iff. auto.
  - intros H. apply digits_complete in H as [(c & t & -> & D) H]. cbn [unsigned_val]. now rewrite D.
Qed.
Lemma digits_head s z : digits s z -> exists c t, s = c :: t /\ is_digit c = true.
Proof. intros H. now apply digits_complete in H. Qed.
Lemma py_int_numeral s z : py_int s = Some z <-> numeral s z.
Proof.
  unfold py_int, numeral. destruct (strip s) as [|c t].
  - split; [discriminate|]. intros (b & [[<- D]|[[X _]|[X _]]]); try discriminate. apply digits_head in D as (? & ? & X & _). discriminate.
  - destruct (Ascii.eqb_spec c "-") as [->|N1].
    + split.
      * intros H. exists t. right. right. split; auto. destruct (unsigned_val t) as [y|] eqn:E; [|discriminate]. injection H as <-. apply unsigned_digits in E. now rewrite Z.opp_involutive.
      * intros (b & [[<- D]|[[X _]|[X D]]]); try discriminate; [apply digits_head in D as (? & ? & X & Y); injection X as <- <-; discriminate|].
        injection X as <-. apply unsigned_digits in D. rewrite D. cbn. now rewrite Z.opp_involutive.
    + destruct (Ascii.eqb_spec c "+") as [->|N2].
      * rewrite unsigned_digits. split; [intros H; exists t; auto|].
        intros (b & [[<- D]|[[X D]|[X D]]]); try discriminate; [apply digits_head in D as (? & ? & X & Y); injection X as <- <-; discriminate|]. now injection X as <-.
      * rewrite unsigned_digits. split; [intros H; exists (c :: t); auto|].
        intros (b & [[<- D]|[[X D]|[X D]]]); auto; injection X as -> _; [now elim N2|now elim N1].
Qed.

(* the versions accepted, and what they are read as; everything else is a CCPPError *)
Theorem C42_version version :
  (forall x y, schema_version version = Ok (x, y) <->
     exists a b, version = Some (a ++ "."%char :: b) /\ ~ In "."%char a /\ ~ In "."%char b /\
                 numeral a x /\ numeral b y /\ (1 <= x)%Z /\ (0 <= y)%Z) /\
  ((forall xy, schema_version version <> Ok xy) -> schema_version version = Raise "CCPPError").
Proof.
  split.
  - intros x y. split.
    + destruct version as [v|]; [|discriminate]. cbn [schema_version]. assert (J := join_split "."%char v). assert (NS := split_on_no_sep "."%char v).
      destruct (split_on "." v) as [|a [|b [|c r]]]; try discriminate.
      destruct (py_int a) as [x'|] eqn:EA; [|discriminate]. destruct (py_int b) as [y'|] eqn:EB; [|discriminate].
      destruct (x' <? 1)%Z eqn:X; [discriminate|]. destruct (y' <? 0)%Z eqn:Y; [discriminate|]. intros [= <- <-].
      exists a, b. apply py_int_numeral in EA, EB. apply Z.ltb_ge in X, Y. split; [now rewrite <- J|]. split; [apply NS; now left|]. split; [apply NS; right; now left|]. auto.
    + intros (a & b & -> & A & B & NA & NB & X & Y). cbn [schema_version]. rewrite split_app by auto. rewrite (split_none _ _ B).
      apply py_int_numeral in NA, NB. rewrite NA, NB. apply Z.ltb_ge in X, Y. now rewrite X, Y.
  - intros H. destruct version as [v|]; auto. cbn [schema_version] in *.
    destruct (split_on "." v) as [|a [|b [|c r]]]; auto. destruct (py_int a); auto. destruct (py_int b); auto.
    destruct (_ <? 1)%Z; auto. destruct (_ <? 0)%Z; auto. now elim (H (z, z0)).
Qed.
Print Assumptions C42_version.
Example C42_version_ex : schema_version (Some (L "2.13")) = Ok (2, 13)%Z /\ schema_version (Some (L "0.1")) = Raise "CCPPError" /\ schema_version (Some (L "1.a")) = Raise "CCPPError".
Proof. repeat split. Qed.

(* a version written in decimal is read back *)
Lemma uint_val u : forall n, digits_val (Z.of_nat n) (uint_str u) = Some (Z.of_nat (Nat.of_uint_acc u n)).
Proof.
  induction u; intros n; cbn [uint_str digits_val Nat.of_uint_acc]; auto;
  (match goal with |- context [is_digit ?c] => change (is_digit c) with true end); cbn iota;
  rewrite <- IHu; f_equal; rewrite ?Nat.tail_mul_spec; (match goal with |- context [code ?c - 48] => let v := eval vm_compute in (code c - 48) in change (code c - 48) with v end); lia.
Qed.
Lemma str_of_nat_numeral n : numeral (str_of_nat n) (Z.of_nat n).
Proof.
  assert (D := str_of_nat_digits n). assert (N := str_of_nat_nonempty n).
  exists (str_of_nat n). left. split.
  - apply strip_inner. intros c I. rewrite forallb_forall in D. specialize (D c I). unfold is_digit, in_range in D. apply andb_true_iff in D as [A B]. apply Nat.leb_le in A, B.
    destruct (is_space c) eqn:E; auto. exfalso. unfold is_space in E. revert E A B. clear. destruct c as [[] [] [] [] [] [] [] []]; cbn; intros; try discriminate; lia.
  - apply unsigned_digits. assert (V := uint_val (Nat.to_uint n) 0). change (Nat.of_uint_acc (Nat.to_uint n) 0) with (Nat.of_uint (Nat.to_uint n)) in V.
    rewrite DecimalNat.Unsigned.of_to in V. change (uint_str (Nat.to_uint n)) with (str_of_nat n) in V.
    destruct (str_of_nat n) as [|c t]; [now elim N|]. cbn [forallb] in D. apply andb_true_iff in D as [D _]. cbn [unsigned_val]. rewrite D. exact V.
Qed.
Lemma digits_no_char n c : is_digit c = false -> ~ In c (str_of_nat n).
Proof. intros D I. assert (H := str_of_nat_digits n). rewrite forallb_forall in H. specialize (H c I). congruence. Qed.
Theorem C42_roundtrip M m : 1 <= M -> schema_version (Some (str_of_nat M ++ L "." ++ str_of_nat m)) = Ok (Z.of_nat M, Z.of_nat m).
Proof.
  intros LE. apply C42_version. exists (str_of_nat M), (str_of_nat m). split; [reflexivity|].
  split; [now apply digits_no_char|]. split; [now apply digits_no_char|]. split; [apply str_of_nat_numeral|]. split; [apply str_of_nat_numeral|]. lia.
Qed.
Print Assumptions C42_roundtrip.
Example C42_roundtrip_ex : str_of_nat 12 ++ L "." ++ str_of_nat 0 = L "12.0". Proof. reflexivity. Qed.

(* different versions of one schema have different files *)
Theorem C42_schema_files root v w : schema_file root v = schema_file root w -> v = w.
Proof.
  destruct v as [a b], w as [c d]. unfold schema_file. cbn [fst snd]. intros H. apply app_inv_head in H. apply app_inv_head in H.
  assert (CUT : forall x y r s : str, ~ In "_"%char x -> ~ In "_"%char y -> x ++ "_"%char :: r = y ++ "_"%char :: s -> x = y /\ r = s).
  { intros x y r s X Y E. assert (F : split_first "_" (x ++ "_"%char :: r) = split_first "_" (y ++ "_"%char :: s)) by (now rewrite E).
    rewrite !split_first_at in F by auto. now injection F as -> ->. }
  apply CUT in H as [E1 E2]; try (now apply digits_no_char). apply str_of_nat_inj in E1. apply app_inv_tail in E2. apply str_of_nat_inj in E2. now subst.
Qed.
Print Assumptions C42_schema_files.
Example C42_schema_files_ex : schema_file (L "suite") (1, 0) = L "suite_v1_0.xsd". Proof. reflexivity. Qed.

(* finding: signs, blanks and underscores are accepted in a version, so two texts may name one version *)
Theorem C42_finding_spellings : schema_version (Some (L " +1_0. 0 ")) = Ok (10, 0)%Z /\ schema_version (Some (L "10.00")) = Ok (10, 0)%Z.
Proof. split; reflexivity. Qed.
Print Assumptions C42_finding_spellings.
