(* CsProofs.v: the lemmas about call strings. *)
From Verif Require Import PyStr Regex PhaseSpec CheckModel CheckSpec CheckProofs DictModel DictProofs HdrModel HdrProofs CsModel CsSpec.
Open Scope nat_scope.
Open Scope list_scope.

Lemma Ok_eq {A} (a b : A) : Ok a = Ok b -> a = b. Proof. congruence. Qed.
Lemma b_inv {A B} (r : res A) (f : A -> res B) b : (x <- r ;; f x) = Ok b -> exists a, r = Ok a /\ f a = Ok b.
Proof. intros H. now apply bind_ok in H. Qed.

Lemma array_ref_paren s n subs : array_ref s n subs -> In "("%char s.
Proof. intros (_ & _ & _ & w & ps & _ & _ & ->). rewrite !in_app_iff. right. right. left. now left. Qed.
Lemma fname_no_paren s c : fortran_name s -> (c = "("%char \/ c = ")"%char \/ c = ","%char) -> ~ In c s.
Proof. intros N C I. apply fname_word in N as [_ N]. apply N, word_facts in I. destruct C as [->|[->| ->]]; tauto. Qed.
Lemma word_colon c : is_word c = true -> c <> ":"%char. Proof. intros H ->. discriminate. Qed.
Lemma fname_no_colon s : fortran_name s -> ~ In ":"%char s.
Proof. intros N I. apply fname_word in N as [_ N]. apply N, word_colon in I. congruence. Qed.
Lemma digit_colon c : is_digit c = true -> c <> ":"%char. Proof. intros H ->. discriminate. Qed.

Lemma ref_parts_some s n subs : array_ref s n subs -> ref_parts s = Some (n, subs).
Proof.
  intros A. unfold ref_parts. assert (R : re_dollar scalar_ref_re s = true) by (apply re_dollar_spec; left; apply scalar_ref_spec; eauto).
  rewrite R, (ref_tokens_spec _ _ _ A). reflexivity.
Qed.
Lemma ref_parts_none s : ~ In "("%char s -> ref_parts s = None.
Proof.
  intros N. unfold ref_parts. destruct (re_dollar scalar_ref_re s) eqn:R; auto. exfalso. apply N. apply re_dollar_spec in R as [R|(t & -> & R)].
  - apply scalar_ref_spec in R as (n & l & A). eapply array_ref_paren; eauto.
  - apply scalar_ref_spec in R as (n & l & A). apply in_app_iff. left. eapply array_ref_paren; eauto.
Qed.
Lemma plain_name s : ~ In "("%char s -> plain s = (s, []).
Proof.
  intros N. unfold plain. destruct s as [|c t]; auto. destruct (Ascii.eqb c "(") eqn:E; auto.
  destruct (existsb (Ascii.eqb "(") (c :: t)) eqn:X; auto. apply existsb_exists in X as (x & I & Q). apply Ascii.eqb_eq in Q. subst x. contradiction.
Qed.
Lemma takewhile_app' {A} (f : A -> bool) a x b : (forall c, In c a -> f c = true) -> f x = false -> takewhile f (a ++ x :: b) = a.
Proof. intros H X. induction a as [|c a IH]; cbn; [now rewrite X|]. rewrite (H c (or_introl eq_refl)), IH; auto. intros; apply H; now right. Qed.
Lemma dropwhile_app' {A} (f : A -> bool) a x b : (forall c, In c a -> f c = true) -> f x = false -> dropwhile f (a ++ x :: b) = x :: b.
Proof. intros H X. induction a as [|c a IH]; cbn; [now rewrite X|]. rewrite (H c (or_introl eq_refl)), IH; auto. intros; apply H; now right. Qed.

Lemma plain_ref s n subs : array_ref s n subs -> plain s = (n, subs).
Proof.
  intros A. destruct A as (N & FS & LD & w & ps & W & F2 & ->). destruct (fname_word _ N) as [N1 N2].
  assert (PF : forall p, In p ps -> forall c, In c p -> c <> "("%char /\ c <> ")"%char /\ c <> ","%char).
  { clear -FS F2. induction F2 as [|p d ps ds P F2 IH]; intros q Q; [destruct Q|]. destruct Q as [<-|Q].
    - eapply padded_facts; eauto. now apply Forall_inv in FS.
    - apply IH; auto. now apply Forall_inv_tail in FS. }
  assert (PN : ps <> []) by (intros ->; inversion F2; subst; cbn in LD; lia).
  unfold plain. destruct n as [|c t] eqn:En; [congruence|]. cbn [app]. rewrite <- En in *.
  assert (C0 : Ascii.eqb c "(" = false) by (apply Ascii.eqb_neq; intros ->; assert (X := N2 "("%char); rewrite En in X; specialize (X (or_introl eq_refl)); discriminate).
  rewrite C0. change (c :: t ++ w ++ L "(" ++ join (L ",") ps ++ L ")") with ((c :: t) ++ w ++ L "(" ++ join (L ",") ps ++ L ")"). rewrite <- En.
  assert (X : existsb (Ascii.eqb "(") (n ++ w ++ L "(" ++ join (L ",") ps ++ L ")") = true).
  { apply existsb_exists. exists "("%char. split; [|reflexivity]. rewrite !in_app_iff. right. right. left. now left. }
  rewrite X. rewrite app_assoc. cbn [L list_ascii_of_string app].
  assert (NP : forall c, In c (n ++ w) -> negb (Ascii.eqb c "(") = true).
  { intros x I. apply negb_true_iff, Ascii.eqb_neq. intros ->. apply in_app_iff in I as [I|I]; [apply N2, word_facts in I; tauto|apply W, space_facts in I; tauto]. }
  rewrite takewhile_app', dropwhile_app' by (auto; reflexivity). cbn [tl]. f_equal.
  - apply (strip_padded _ n); auto; [exists [], w; split; auto; split; auto; intros x []|]. intros x I. apply N2, word_facts in I. tauto.
  - assert (R : rstrip (join [","%char] ps ++ [")"%char]) = join [","%char] ps ++ [")"%char]).
    { unfold rstrip. rewrite rev_app_distr. cbn [rev app dropwhile is_space]. change (rev (")"%char :: rev (join [","%char] ps)) = join [","%char] ps ++ [")"%char]). cbn [rev]. now rewrite rev_involutive. }
    rewrite R, removelast_last. rewrite split_join; auto; [|intros p P I; now apply (PF p P) in I].
    clear -F2 FS. induction F2 as [|p d ps ds P F2 IH]; cbn [map]; auto. rewrite IH by now apply Forall_inv_tail in FS. f_equal.
    apply Forall_inv in FS. apply subscript_facts in FS as [Dn D]. eapply strip_padded; eauto. intros x I. now apply D.
Qed.

Lemma fill_spec subs : forall dims full, length dims <= length (List.filter (str_eqb colon) subs) ->
  (fill subs dims = Ok full <-> filled subs dims full).
Proof.
  induction subs as [|x subs IH]; intros dims full.
  - cbn [fill List.filter length]. intros LE. destruct dims; [|cbn in LE; lia]. split; [intros H; apply Ok_eq in H; subst; constructor|intros H; inversion H; reflexivity].
  - cbn [fill List.filter]. destruct (str_eqb x colon) eqn:E.
    + apply str_eqb_eq in E. subst x. rewrite str_eqb_refl. cbn [length]. intros LE. destruct dims as [|d dims].
      * split; [discriminate|]. intros H. inversion H; subst; match goal with Z : _ <> _ |- _ => elim Z; reflexivity end.
      * cbn [length] in LE. assert (LE' : length dims <= length (List.filter (str_eqb colon) subs)) by lia. split.
        -- intros H. apply b_inv in H as (l & Fl & H). apply Ok_eq in H. subst. constructor. apply IH; auto.
        -- intros H. inversion H; subst; [|match goal with Z : _ <> _ |- _ => elim Z; reflexivity end]. match goal with Z : filled subs _ _ |- _ => apply IH in Z; auto; rewrite Z end. reflexivity.
    + assert (E' : str_eqb colon x = false) by (apply str_eqb_neq; apply str_eqb_neq in E; intros K; apply E; symmetry; exact K). rewrite E'. intros LE. split.
      * intros H. apply b_inv in H as (l & Fl & H). apply Ok_eq in H. subst. constructor; [now apply str_eqb_neq in E|]. apply IH; auto.
      * intros H. inversion H; subst; [discriminate E|].
        match goal with Z : filled subs _ _ |- _ => apply IH in Z; auto; rewrite Z end. reflexivity.
Qed.
Lemma filled_count subs dims full : filled subs dims full -> length dims = length (List.filter (str_eqb colon) subs) /\ length full = length subs.
Proof.
  induction 1 as [|d subs dims full F [IH1 IH2]|x subs dims full X F [IH1 IH2]]; auto.
  - cbn [List.filter]. change (L ":") with colon. rewrite str_eqb_refl. cbn [length]. rewrite <- IH1. auto.
  - cbn [List.filter]. assert (E : str_eqb colon x = false) by (apply str_eqb_neq; intros K; apply X; symmetry; exact K). rewrite E. cbn [length]. rewrite <- IH1. auto.
Qed.
Lemma fill_err subs : forall dims, (exists f, fill subs dims = Ok f) \/ fill subs dims = Raise "CCPPError".
Proof.
  induction subs as [|x subs IH]; intros dims; cbn [fill]; [left; eauto|]. destruct (str_eqb x colon).
  - destruct dims as [|d dims]; [now right|]. destruct (IH dims) as [(f & ->)| ->]; [left|right]; cbn; eauto.
  - destruct (IH dims) as [(f & ->)| ->]; [left|right]; cbn; eauto.
Qed.
Lemma handle_err v : (exists x, handle v = Ok x) \/ handle v = Raise "CCPPError".
Proof.
  unfold handle. destruct (ref_parts (v_local v)) as [[n l]|]; [|left; eauto]. destruct (_ <? _); [now right|].
  destruct (fill_err l (v_dims v)) as [(f & ->)| ->]; [left|right]; cbn; eauto.
Qed.
Lemma handle_ref v n subs : array_ref (v_local v) n subs -> forall n' full, handle v = Ok (n', full) <-> n' = n /\ filled subs (v_dims v) full.
Proof.
  intros A n' full. unfold handle. rewrite (ref_parts_some _ _ _ A). destruct (_ <? _) eqn:E.
  - apply Nat.ltb_lt in E. split; [discriminate|]. intros [_ F]. apply filled_count in F as [F _]. lia.
  - apply Nat.ltb_ge in E. split.
    + intros H. apply b_inv in H as (f & Ff & H). apply Ok_eq in H. injection H as <- <-. split; auto. now apply fill_spec.
    + intros [-> F]. apply fill_spec in F; auto. now rewrite F.
Qed.
Lemma handle_plain v : fortran_name (v_local v) -> handle v = Ok (v_local v, v_dims v).
Proof. intros N. unfold handle. rewrite ref_parts_none; auto. now apply fname_no_paren; auto. Qed.

(* what the first step of call_string finds *)
Definition parts_of (sect : bool) (o : obj) : res (str * list str) :=
  if sect then handle (leaf o) else Ok (plain (v_local (leaf o))).
Definition is_some {A} (x : option A) : bool := match x with Some _ => true | None => false end.
Lemma parts_lv (lv : option dict) o : (match lv with None => Ok (plain (v_local (leaf o))) | Some _ => handle (leaf o) end) = parts_of (is_some lv) o.
Proof. now destruct lv. Qed.
Lemma refers_sound sect o : named o -> forall n full, parts_of sect o = Ok (n, full) -> refers sect o (prefix o ++ n) full.
Proof.
  induction 1 as [v N|v n0 subs A|r fld R N IH]; intros n full P; cbn [prefix leaf app] in *.
  - unfold parts_of in P. cbn [leaf] in P. destruct sect.
    + rewrite handle_plain in P by auto. apply Ok_eq in P. injection P as <- <-. exact (R_plain true v N).
    + rewrite plain_name in P by (apply fname_no_paren; auto). apply Ok_eq in P. injection P as <- <-. exact (R_plain false v N).
  - unfold parts_of in P. cbn [leaf] in P. destruct sect.
    + apply (handle_ref v n0 subs A) in P as [-> F]. eapply R_ref; eauto.
    + rewrite (plain_ref _ _ _ A) in P. apply Ok_eq in P. injection P as <- <-. eapply R_ref; eauto.
  - rewrite <- !app_assoc. apply R_part; auto.
Qed.
Lemma refers_complete sect o p full : refers sect o p full -> exists n, p = prefix o ++ n /\ parts_of sect o = Ok (n, full).
Proof.
  induction 1 as [v N|v n subs full A F|r fld p full R F (n & -> & IH)]; cbn [prefix app].
  - exists (v_local v). split; auto. unfold parts_of. cbn [leaf]. destruct sect; [now apply handle_plain|]. now rewrite plain_name by (apply fname_no_paren; auto).
  - exists n. split; auto. unfold parts_of. cbn [leaf]. destruct sect.
    + apply (handle_ref v n subs A); auto.
    + subst. now rewrite (plain_ref _ _ _ A).
  - exists n. split; [now rewrite <- !app_assoc|exact IH].
Qed.
Lemma refers_path sect o p full : refers sect o p full -> path p.
Proof.
  induction 1 as [v N|v n subs full A F|r fld p full R F (ns & NE & FN & ->)].
  - exists [v_local v]. split; [discriminate|]. split; [now constructor|reflexivity].
  - exists [n]. split; [discriminate|]. split; [constructor; auto; now destruct A|reflexivity].
  - exists (v_local r :: ns). split; [discriminate|]. split; [now constructor|]. destruct ns; [congruence|reflexivity].
Qed.
Lemma refers_named sect o p full : refers sect o p full -> named o.
Proof. induction 1 as [v N|v n subs full A F|r fld p full R F IH]; [now apply N_plain|eapply N_ref; eauto|now apply N_part]. Qed.

Lemma pieces_split dim ps : pieces dim ps <-> ps = split_on ":" dim.
Proof.
  split.
  - intros (NE & F & ->). symmetry. apply (split_join ":"%char); auto. intros p I. rewrite Forall_forall in F. exact (F p I).
  - intros ->. split; [apply split_on_nonempty|]. split; [|symmetry; apply (join_split ":"%char)].
    apply Forall_forall. intros p I. exact (split_on_no_sep ":"%char dim p I).
Qed.
Lemma split_single s : ~ In ":"%char s -> split_on ":" s = [s]. Proof. apply split_none. Qed.

(* the dimensions of what a variable of the dictionary refers to *)
Lemma subs_ok n s subs : array_ref s n subs -> Forall dim_ok subs.
Proof.
  intros (_ & FS & _). rewrite Forall_forall in *. intros x I. specialize (FS x I). intros ps P. apply pieces_split in P. subst ps.
  destruct FS as [N|[->|[Z D]]].
  - rewrite split_single by now apply fname_no_colon. constructor; auto. right. now left.
  - cbn. repeat constructor.
  - rewrite split_single by (intros K; apply D, digit_colon in K; congruence). constructor; auto. right. right. exists [], x. split; auto. split; [now left|auto].
Qed.
Lemma filled_ok subs dims full : filled subs dims full -> Forall dim_ok subs -> Forall dim_ok dims -> Forall dim_ok full.
Proof.
  induction 1 as [|d subs dims full F IH|x subs dims full X F IH]; intros A B; auto.
  - constructor; [now inversion B|]. apply IH; [now inversion A|now inversion B].
  - constructor; [now inversion A|]. apply IH; auto. now inversion A.
Qed.
Lemma refers_dims sect o p full : refers sect o p full -> Forall dim_ok (v_dims (leaf o)) -> Forall dim_ok full.
Proof.
  induction 1 as [v N|v n subs full A F|r fld p full R F IH]; cbn [leaf]; intros D; auto.
  - destruct sect; auto.
  - destruct sect; [eapply filled_ok; eauto; eapply subs_ok; eauto|]. subst. eapply subs_ok; eauto.
Qed.

(* ---- the loop dimensions ---- *)
Lemma substs_spec dim : match get dim loop_dim_substs with
  | Some sub => In (dim, split_on ":" sub) loop_dims
  | None => forall names, ~ In (dim, names) loop_dims
  end.
Proof.
  unfold loop_dim_substs. cbn [get].
  destruct (str_eqb dim (L "ccpp_constant_one:horizontal_dimension")) eqn:E1; [apply str_eqb_eq in E1; subst; now left|].
  destruct (str_eqb dim (L "ccpp_constant_one:vertical_layer_dimension")) eqn:E2; [apply str_eqb_eq in E2; subst; right; now left|].
  destruct (str_eqb dim (L "ccpp_constant_one:vertical_interface_dimension")) eqn:E3; [apply str_eqb_eq in E3; subst; right; right; now left|].
  apply str_eqb_neq in E1, E2, E3. intros names [H|[H|[H|[]]]]; apply (f_equal fst) in H; cbn [fst] in H; congruence.
Qed.
Lemma loop_dims_fun dim names : In (dim, names) loop_dims -> exists sub, get dim loop_dim_substs = Some sub /\ split_on ":" sub = names.
Proof. intros [H|[H|[H|[]]]]; apply pair_equal_spec in H as [<- <-]; eexists; split; vm_compute; reflexivity. Qed.
Lemma loop_name_facts dim names s : In (dim, names) loop_dims -> In s names -> s <> const_one /\ s <> [].
Proof.
  intros [H|[H|[H|[]]]]; apply pair_equal_spec in H as [<- <-]; cbn [In]; intros I; repeat (destruct I as [<-|I]; [split; vm_compute; discriminate|]); destruct I.
Qed.
Lemma loop_key_colon dim names : In (dim, names) loop_dims -> In ":"%char dim.
Proof. intros [H|[H|[H|[]]]]; apply pair_equal_spec in H as [<- <-]; repeat (try (left; reflexivity); right). Qed.

Lemma find_cases d s : (s = const_one /\ find d s = Some one_var) \/ (s <> const_one /\ find d s = get s d).
Proof. unfold find. destruct (str_eqb s const_one) eqn:E; [left; apply str_eqb_eq in E|right; apply str_eqb_neq in E]; auto. Qed.
Lemma get_none_iff {A} k (l : list (str * A)) : get k l = None <-> ~ In k (map fst l).
Proof.
  induction l as [|[k' v] l IH]; cbn [get map fst In]; [tauto|]. destruct (str_eqb k k') eqn:E.
  - apply str_eqb_eq in E. subst. split; [discriminate|]. intros H. elim H. now left.
  - apply str_eqb_neq in E. rewrite IH. split; [intros H [K|K]; congruence|tauto].
Qed.
Lemma collect_inv call l names : forall r, collect call l names = Ok r ->
  match r with
  | Some ts => Forall2 (fun s t => exists o, find l s = Some o /\ call l None o = Ok t) names ts
  | None => exists s, In s names /\ find l s = None
  end.
Proof.
  induction names as [|s names IH]; intros r H; cbn [collect] in H; [apply Ok_eq in H; subst; constructor|].
  destruct (find l s) as [o|] eqn:Fs; [|apply Ok_eq in H; subst; exists s; split; [now left|auto]].
  apply b_inv in H as (t & Ct & H). apply b_inv in H as (m & Cm & H). apply Ok_eq in H. subst r. specialize (IH m Cm). destruct m as [ts|]; cbn [option_map].
  - constructor; eauto.
  - destruct IH as (x & I & Fx). exists x. split; auto. now right.
Qed.

(* ---- literals ---- *)
Lemma alpha_not_digit c : is_alpha c = true -> is_digit c = false /\ is_space c = false /\ c <> "-"%char /\ c <> "+"%char.
Proof.
  intros H. split; [|split; [|split]].
  - destruct c as [[] [] [] [] [] [] [] []]; try discriminate H; reflexivity.
  - destruct c as [[] [] [] [] [] [] [] []]; try discriminate H; reflexivity.
  - intros ->. discriminate.
  - intros ->. discriminate.
Qed.
Lemma fname_not_int s : fortran_name s -> py_int s = None.
Proof.
  intros N. assert (N' := N). destruct N as (c & t & -> & A & W). apply fname_word in N' as [_ N'].
  unfold py_int. rewrite strip_inner by (intros x I; apply N', word_facts in I; tauto).
  apply alpha_not_digit in A as (D & _ & M & P).
  destruct (Ascii.eqb c "-") eqn:E; [apply Ascii.eqb_eq in E; congruence|]. destruct (Ascii.eqb c "+") eqn:E2; [apply Ascii.eqb_eq in E2; congruence|].
  unfold unsigned_val. now rewrite D.
Qed.
Lemma part_lit s n : part_ok s -> s <> [] -> py_int s = Some n -> int_literal s.
Proof. intros [->|[N|I]] NE P; auto; [congruence|]. now rewrite (fname_not_int _ N) in P. Qed.
Lemma one_text f lv d t : call_string f d lv one_var = Ok t -> t = L "1".
Proof. destruct f as [|f]; [discriminate|]. destruct lv; cbn; intros H; apply Ok_eq in H; auto. Qed.
Lemma eval_one m : eval m (L "1") 1.
Proof. apply E_lit; [|reflexivity]. exists [], (L "1"). split; auto. split; [now left|]. split; [discriminate|]. intros c [<-|[]]. reflexivity. Qed.

Lemma evals_F2 m ts ns : evals m ts ns <-> Forall2 (eval m) ts ns.
Proof. split; [induction 1|induction 1]; constructor; auto. Qed.
Lemma std_vals_F2 d m ts ns : std_vals d m ts ns <-> Forall2 (std_val d m) ts ns.
Proof. split; [induction 1|induction 1]; constructor; auto. Qed.
Lemma F2_choose {A B C} (P : A -> B -> Prop) (R : A -> C -> Prop) (Q : B -> C -> Prop) la lb :
  Forall2 P la lb -> (forall a b, In a la -> P a b -> exists c, R a c /\ Q b c) -> exists lc, Forall2 R la lc /\ Forall2 Q lb lc.
Proof.
  induction 1 as [|a b la lb H F IH]; intros K; [exists []; split; constructor|]. destruct (K a b (or_introl eq_refl) H) as (c & R1 & Q1).
  destruct IH as (lc & R2 & Q2); [intros x y I; apply K; now right|]. exists (c :: lc). split; constructor; auto.
Qed.

(* ---- soundness ---- *)
Definition scalar_sound (f : nat) : Prop :=
  forall d lv s o t, tidy d -> In (s, o) d -> scalar o -> call_string f d lv o = Ok t ->
  forall m, exists p subs ns, refers false o p subs /\ std_vals d m subs ns /\ eval m t (m p ns).
Lemma item_sound f d lv x t : scalar_sound f -> tidy d -> part_ok x -> x <> [] -> (forall o, In (x, o) d -> scalar o) ->
  item_text (call_string f) d lv x = Ok t -> forall m, exists n, std_val d m x n /\ eval m t n.
Proof.
  intros IH T PO NE SC H m. unfold item_text in H. destruct (str_eqb x []) eqn:E; [apply str_eqb_eq in E; congruence|].
  destruct (find_cases d x) as [[-> Fx]|[NC Fx]]; rewrite Fx in H.
  - apply one_text in H. subst. exists 1%Z. split; [apply V_one|apply eval_one].
  - destruct (get x d) as [o|] eqn:G.
    + apply get_in in G. destruct (IH d lv x o t T G (SC o G) H m) as (p & subs & ns & R & SV & EV). exists (m p ns). split; auto. eapply V_var; eauto.
    + destruct (py_int x) as [n|] eqn:P; [|discriminate]. apply Ok_eq in H. subst t. exists n. split.
      * apply V_lit; auto; [now apply get_none_iff|]. eapply part_lit; eauto.
      * apply E_lit; auto. eapply part_lit; eauto.
Qed.
Lemma single_text f d lv x t : ~ In ":"%char x -> dim_text (call_string f) d lv x = Ok t -> item_text (call_string f) d lv x = Ok t.
Proof.
  intros NC H. unfold dim_text in H. assert (M : (match lv with Some (e :: l) => dim_match (call_string f) (e :: l) x | _ => Ok None end) = Ok None).
  { destruct lv as [[|e l]|]; auto. unfold dim_match. pose proof (substs_spec x) as S. destruct (get x loop_dim_substs); auto. apply loop_key_colon in S. contradiction. }
  rewrite M in H. cbn [bind] in H. rewrite split_single in H by auto. cbn [map_res] in H. apply b_inv in H as (ts & H1 & H). apply b_inv in H1 as (y & Y & H1). cbn [bind] in H1.
  apply Ok_eq in H1. apply Ok_eq in H. subst ts. cbn [join] in H. now subst.
Qed.
Lemma single_back f d lv x t : ~ In ":"%char x -> item_text (call_string f) d lv x = Ok t -> dim_text (call_string f) d lv x = Ok t.
Proof.
  intros NC H. unfold dim_text. assert (M : (match lv with Some (e :: l) => dim_match (call_string f) (e :: l) x | _ => Ok None end) = Ok None).
  { destruct lv as [[|e l]|]; auto. unfold dim_match. pose proof (substs_spec x) as S. destruct (get x loop_dim_substs); auto. apply loop_key_colon in S. contradiction. }
  rewrite M. cbn [bind]. rewrite split_single by auto. cbn [map_res]. rewrite H. reflexivity.
Qed.
Lemma scalar_parts o sect p full : scalar o -> refers false o p full -> parts_of sect o = parts_of false o.
Proof.
  intros [D NC] R. specialize (NC _ _ R). destruct sect; auto. unfold parts_of. revert D NC. induction R as [v N|v n subs full A F|r fld p full N R IH]; cbn [leaf]; intros D NC; auto.
  - rewrite handle_plain, D, plain_name; auto. apply fname_no_paren; auto.
  - subst full. rewrite (plain_ref _ _ _ A). apply (handle_ref v n subs A). split; auto. rewrite D. clear -NC. induction NC as [|x l X NC IH]; constructor; auto.
    intros ->. apply X. now left.
Qed.
Lemma named_plain o : named o -> exists p full, refers false o p full.
Proof.
  intros N. destruct (parts_of false o) as [[n full]|] eqn:P; [|unfold parts_of in P; discriminate]. exists (prefix o ++ n), full. now apply refers_sound.
Qed.
Lemma call_unfold f d lv o : call_string (S f) d lv o =
  (nd <- parts_of (is_some lv) o ;;
   match snd nd with
   | [] => Ok (prefix o ++ fst nd)
   | dims => ts <- map_res (dim_text (call_string f) d lv) dims ;; Ok (prefix o ++ fst nd ++ L "(" ++ join (L ", ") ts ++ L ")")
   end).
Proof. cbn [call_string]. now rewrite parts_lv. Qed.
Lemma scalar_sound_all f : scalar_sound f.
Proof.
  induction f as [|f IH]; intros d lv s o t T I SC H m; [discriminate|]. rewrite call_unfold in H.
  destruct (named_plain o (t_named _ T _ _ I)) as (p & full & R). rewrite (scalar_parts o _ p full SC R) in H.
  destruct (refers_complete _ _ _ _ R) as (n & -> & P). rewrite P in H. cbn [bind fst snd] in H.
  assert (PA := refers_path _ _ _ _ R). destruct SC as [D NC]. assert (NCR := NC _ _ R).
  destruct full as [|x full].
  - apply Ok_eq in H. subst t. exists (prefix o ++ n), [], []. split; auto. split; [constructor|]. now apply E_name.
  - set (fl := x :: full) in *. assert (NE : fl <> []) by discriminate. assert (H' : (ts <- map_res (dim_text (call_string f) d lv) fl ;; Ok (prefix o ++ n ++ L "(" ++ join (L ", ") ts ++ L ")")) = Ok t) by exact H.
    clear H. clearbody fl. apply b_inv in H' as (ts & Mt & H). apply Ok_eq in H. subst t. apply map_res_inv in Mt.
    destruct (F2_choose _ (std_val d m) (eval m) _ _ Mt) as (ns & V & E).
    { intros a b Ia Hb. rewrite Forall_forall in NCR. assert (Na := NCR a Ia). apply single_text in Hb; auto.
      assert (Pa : pieces a [a]) by (apply pieces_split; now rewrite split_single).
      assert (DO : part_ok a). { assert (X := refers_dims _ _ _ _ R). rewrite D in X. specialize (X (Forall_nil _)). rewrite Forall_forall in X. specialize (X a Ia [a] Pa). now inversion X. }
      assert (AN : a <> []). { clear -R Ia. remember false as sect. revert Heqsect Ia. induction R as [v N|v n0 subs full A F|r fld p full N R IH]; intros -> Ia; [destruct Ia| |now apply IH]. subst. destruct A as (_ & FS & _). rewrite Forall_forall in FS. apply FS, subscript_facts in Ia. tauto. }
      eapply item_sound; eauto. intros o' I'. eapply (t_scalar _ T s o a o' I); eauto. exists false, (prefix o ++ n), fl, a, [a]. split; auto. split; auto. split; auto. now left. }
    exists (prefix o ++ n), fl, ns. split; auto. split; [now apply std_vals_F2|]. rewrite app_assoc. apply E_elem; auto; [|now apply evals_F2].
    intros ->. inversion Mt. congruence.
Qed.

Definition loop_tidy (lv : option dict) : Prop := match lv with Some l => tidy_loop l | None => True end.
Lemma not_cut l dim names s : In (dim, names) loop_dims -> In s names -> find l s = None -> forall names', ~ cut l dim names'.
Proof.
  intros LD I F names' [LD' C]. apply loop_dims_fun in LD as (sub & G & <-). apply loop_dims_fun in LD' as (sub' & G' & <-). rewrite G in G'. injection G' as <-.
  unfold find in F. destruct (str_eqb s const_one); [discriminate|]. apply get_none_iff in F. apply F. auto.
Qed.
Lemma cut_sound f l dim names ts : tidy_loop l -> In (dim, names) loop_dims ->
  Forall2 (fun s t => exists o, find l s = Some o /\ call_string f l None o = Ok t) names ts ->
  cut l dim names /\ forall m, exists x, Forall2 (loop_val l m) names x /\ sub_text m (join colon ts) x.
Proof.
  intros [T SC] LD F. split.
  - split; auto. intros s I. destruct (Forall2_in_l _ _ _ F s I) as (t & _ & o & Fs & _). destruct (loop_name_facts _ _ _ LD I) as [NC _].
    destruct (find_cases l s) as [[E _]|[_ E]]; [congruence|]. rewrite E in Fs. apply get_in in Fs. change s with (fst (s, o)). now apply in_map.
  - intros m. destruct (F2_choose _ (loop_val l m) (part_text m) _ _ F) as (x & V & P).
    { intros s t I (o & Fs & C). destruct (loop_name_facts _ _ _ LD I) as [NC _]. destruct (find_cases l s) as [[E _]|[_ E]]; [congruence|]. rewrite E in Fs. apply get_in in Fs.
      destruct (scalar_sound_all f l None s o t T Fs (SC s o _ _ LD I Fs) C m) as (p & subs & ns & R & SV & EV). exists (Some (m p ns)). split; [|exact EV]. exists (m p ns). split; auto. eapply V_var; eauto. }
    exists x. split; auto. exists ts. auto.
Qed.
Lemma items_sound f d lv ps ts : tidy d -> Forall part_ok ps -> (forall s o, In s ps -> In (s, o) d -> scalar o) ->
  Forall2 (fun s t => item_text (call_string f) d lv s = Ok t) ps ts ->
  forall m, exists x, Forall2 (part_val d m) ps x /\ Forall2 (part_text m) ts x.
Proof.
  intros T PO SC F m. apply (F2_choose _ (part_val d m) (part_text m) _ _ F). intros s t I H. rewrite Forall_forall in PO. specialize (PO s I).
  destruct s as [|c s1].
  - cbn in H. apply Ok_eq in H. subst t. exists None. split; reflexivity.
  - assert (NE : c :: s1 <> []) by discriminate. destruct (item_sound f d lv (c :: s1) t (scalar_sound_all f) T PO NE (fun o => SC _ o I) H m) as (n & V & E). exists (Some n). split; [split; [discriminate|auto]|exact E].
Qed.
Lemma dim_sound f d lv dim t : tidy d -> loop_tidy lv -> dim_ok dim -> (forall ps s o, pieces dim ps -> In s ps -> In (s, o) d -> scalar o) ->
  dim_text (call_string f) d lv dim = Ok t -> forall m, exists x, dim_val d lv m dim x /\ sub_text m t x.
Proof.
  intros T TL DO SC H m. unfold dim_text in H. apply b_inv in H as (r & M & H).
  assert (K : (exists l names ts, lv = Some l /\ In (dim, names) loop_dims /\ r = Some (join colon ts) /\ Forall2 (fun s t => exists o, find l s = Some o /\ call_string f l None o = Ok t) names ts) \/
    (r = None /\ forall l names, lv = Some l -> ~ cut l dim names)).
  { destruct lv as [[|e l]|].
    - apply Ok_eq in M. subst r. right. split; auto. intros l names [= <-] [LD C]. destruct LD as [H1|[H1|[H1|[]]]]; apply pair_equal_spec in H1 as [<- <-]; eapply C; now left.
    - unfold dim_match in M. pose proof (substs_spec dim) as S. destruct (get dim loop_dim_substs) as [sub|] eqn:G.
      + apply b_inv in M as (r' & C & M). apply Ok_eq in M. subst r. apply collect_inv in C. destruct r' as [ts|]; cbn [option_map].
        * left. exists (e :: l), (split_on ":" sub), ts. auto.
        * right. split; auto. destruct C as (s & I & Fs). intros l' names [= <-]. eapply not_cut; eauto.
      + apply Ok_eq in M. subst r. right. split; auto. intros l' names _ [LD _]. now apply S in LD.
    - apply Ok_eq in M. subst r. right. split; auto. intros l names [=]. }
  destruct K as [(l & names & ts & -> & LD & -> & F)|[-> NCU]].
  - apply Ok_eq in H. subst t. destruct (cut_sound f l dim names ts TL LD F) as [C X]. destruct (X m) as (x & V & Q). exists x. split; auto. eapply D_cut; eauto.
  - apply b_inv in H as (ts & Mt & H). apply Ok_eq in H. subst t. apply map_res_inv in Mt.
    assert (P : pieces dim (split_on ":" dim)) by now apply pieces_split.
    destruct (items_sound f d lv _ ts T (DO _ P) (fun s o => SC _ s o P) Mt m) as (x & V & Q). exists x. split; [eapply D_same; eauto|]. exists ts. split; auto.
Qed.
Lemma call_sound f d lv s o t : tidy d -> loop_tidy lv -> In (s, o) d -> call_string f d lv o = Ok t ->
  exists p dims, refers (is_some lv) o p dims /\ forall m, exists vals, Forall2 (dim_val d lv m) dims vals /\ denotes m (L ", ") t p vals.
Proof.
  intros T TL I H. destruct f as [|f]; [discriminate|]. rewrite call_unfold in H. apply b_inv in H as ([n full] & P & H). cbn [fst snd] in H.
  assert (R := refers_sound _ _ (t_named _ T _ _ I) _ _ P). exists (prefix o ++ n), full. split; auto. intros m. assert (PA := refers_path _ _ _ _ R).
  destruct full as [|x full].
  - apply Ok_eq in H. subst t. exists []. split; [constructor|]. split; auto.
  - set (fl := x :: full) in *. assert (NE : fl <> []) by discriminate. assert (H' : (ts <- map_res (dim_text (call_string f) d lv) fl ;; Ok (prefix o ++ n ++ L "(" ++ join (L ", ") ts ++ L ")")) = Ok t) by exact H.
    clear H. clearbody fl. apply b_inv in H' as (ts & Mt & H). apply Ok_eq in H. subst t. apply map_res_inv in Mt.
    destruct (F2_choose _ (dim_val d lv m) (sub_text m) _ _ Mt) as (vals & V & E).
    { intros a b Ia Hb. assert (DO := refers_dims _ _ _ _ R (t_dims _ T _ _ I)). rewrite Forall_forall in DO.
      eapply dim_sound; eauto. intros ps s' o' Pp Is Io. eapply (t_scalar _ T s o s' o' I); eauto. exists (is_some lv), (prefix o ++ n), fl, a, ps. auto. }
    exists vals. split; auto. split; auto. right. split; [|exists ts; split; [now rewrite app_assoc|auto]]. intros ->. inversion V. congruence.
Qed.
