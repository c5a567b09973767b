(* CommonProps.v: C34 containers, C68 array references, C69 identifiers from units. *)
From Verif Require Import PyStr DictModel DictProofs CommonModel CommonSpec CheckProofs LineProofs.
Open Scope nat_scope.
Open Scope list_scope.

(* ---- C34 ---- *)
Lemma cut_us_at a b : ~ In "_"%char a -> cut_us (a ++ "_"%char :: b) = Some (a, b).
Proof.
  induction a as [|c a IH]; intros N; cbn [app cut_us]; [reflexivity|].
  destruct (Ascii.eqb_spec c "_") as [->|E]; [exfalso; apply N; now left|]. rewrite IH; auto. intros I. apply N. now right.
Qed.
Lemma split_one s : no_blank s -> split_on " " s = [s].
Proof. intros N. change s with (join [" "%char] [s]) at 1. apply split_join; [discriminate|]. intros p [<-|[]]. exact N. Qed.
Lemma nb_app a b : no_blank (a ++ b) <-> no_blank a /\ no_blank b.
Proof. unfold no_blank. rewrite in_app_iff. tauto. Qed.
Lemma nb_lit a b : existsb (Ascii.eqb " ") a = false -> no_blank b -> no_blank (a ++ b).
Proof.
  intros E B. apply nb_app. split; auto. intros I. assert (X : existsb (Ascii.eqb " ") a = true); [|congruence].
  apply existsb_exists. exists " "%char. split; auto.
Qed.
Definition label_names (args : list str) : list str :=
  match args with
  | [_; _; _] => map L ["MODULE"; "SCHEME"; "SUBROUTINE"]%string
  | [_; _] => map L ["MODULE"; "TYPE"]%string
  | _ => map L ["MODULE"]%string
  end.
Lemma encode_items args c : encode_container args = Ok c -> (forall a, In a args -> no_blank a) ->
  split_on " " c = map (fun p => fst p ++ "_"%char :: snd p) (combine (label_names args) args) /\ length args <= 3 /\ args <> [].
Proof.
  destruct args as [|m [|t [|r [|x args]]]]; cbn [encode_container]; intros E N; try discriminate; injection E as <-.
  - split; [|split; [cbn; lia|discriminate]]. apply split_one. apply (nb_lit (L "MODULE_")); [reflexivity|]. apply N. now left.
  - split; [|split; [cbn; lia|discriminate]].
    match goal with |- _ = ?r => change (split_on " " ((L "MODULE_" ++ m) ++ " "%char :: (L "TYPE_" ++ t)) = r) end.
    rewrite split_cat, !split_one; [reflexivity| |].
    + apply nb_lit; [reflexivity|]. apply N. right. now left.
    + apply nb_lit; [reflexivity|]. apply N. now left.
  - split; [|split; [cbn; lia|discriminate]].
    match goal with |- _ = ?z => change (split_on " " ((L "MODULE_" ++ m) ++ " "%char :: ((L "SCHEME_" ++ t) ++ " "%char :: (L "SUBROUTINE_" ++ r))) = z) end.
    rewrite !split_cat, !split_one; [reflexivity| | |].
    + apply nb_lit; [reflexivity|]. apply N. right. right. now left.
    + apply nb_lit; [reflexivity|]. apply N. right. now left.
    + apply nb_lit; [reflexivity|]. apply N. now left.
Qed.
(* decoding gives each given name after its label *)
Theorem C34_decode args c : encode_container args = Ok c -> (forall a, In a args -> no_blank a) ->
  decode_container c = Ok (match args with
    | [m; s; r] => L "MODULE " ++ m ++ L " SCHEME " ++ s ++ L " SUBROUTINE " ++ r
    | [m; t] => L "MODULE " ++ m ++ L " TYPE " ++ t
    | m :: _ => L "MODULE " ++ m
    | [] => []
    end).
Proof.
  intros E N. destruct (encode_items args c E N) as (S & LN & NE). unfold decode_container. rewrite S.
  destruct args as [|m [|t [|r [|x args]]]]; try discriminate E; try contradiction; cbn [label_names combine map length Nat.leb fst snd]; unfold cut_item; 
    rewrite !cut_us_at by (cbn; intuition discriminate); cbn [join map]; rewrite <- ?app_assoc; reflexivity.
Qed.
Print Assumptions C34_decode.
(* as a dictionary: exactly the given names under their labels *)
Theorem C34_dict args c : encode_container args = Ok c -> (forall a, In a args -> no_blank a) ->
  exists d, decode_container_as_dict c = Ok d /\
    d = match args with
        | [m; s; r] => [(L "MODULE", m); (L "SCHEME", s); (L "SUBROUTINE", r)]
        | [m; t] => [(L "MODULE", m); (L "TYPE", t)]
        | m :: _ => [(L "MODULE", m)]
        | [] => []
        end.
Proof.
  intros E N. destruct (encode_items args c E N) as (S & LN & NE). unfold decode_container_as_dict. rewrite S.
  destruct args as [|m [|t [|r [|x args]]]]; try discriminate E; try contradiction; cbn [label_names combine map length Nat.leb fst snd fold_left]; unfold cut_item;
    rewrite !cut_us_at by (cbn; intuition discriminate); eexists; (split; [reflexivity|]); reflexivity.
Qed.
Print Assumptions C34_dict.
Theorem C34_injective a b c : encode_container a = Ok c -> encode_container b = Ok c ->
  (forall x, In x a -> no_blank x) -> (forall x, In x b -> no_blank x) -> a = b.
Proof.
  intros A B NA NB. destruct (C34_dict a c A NA) as (d & D & EA). destruct (C34_dict b c B NB) as (d' & D' & EB).
  rewrite D in D'. injection D' as <-. rewrite EA in EB.
  destruct a as [|m [|t [|r [|x a]]]], b as [|m' [|t' [|r' [|x' b]]]]; try discriminate A; try discriminate B; try discriminate EB; try (injection EB; congruence).
Qed.
Print Assumptions C34_injective.
(* one, two or three names are accepted, nothing else *)
Theorem C34_arity args : (exists c, encode_container args = Ok c) <-> 1 <= length args <= 3.
Proof.
  destruct args as [|m [|t [|r [|x args]]]]; cbn; split; intros H; try (destruct H; discriminate); try lia; try (eexists; reflexivity).
Qed.
Print Assumptions C34_arity.
(* a name with a blank in it is not told from two items; an item without underscore loses its last character *)
Theorem C34_finding_blank : encode_container [L "a TYPE_b"] = encode_container [L "a"; L "b"].
Proof. reflexivity. Qed.
Theorem C34_finding_no_underscore : decode_container (L "foo") = Ok (L "fo foo").
Proof. reflexivity. Qed.
Print Assumptions C34_finding_blank.
Print Assumptions C34_finding_no_underscore.
Example C34_ex : exists c, encode_container [L "my_mod"; L "my_scheme"; L "my_scheme_run"] = Ok c /\
  (forall a, In a [L "my_mod"; L "my_scheme"; L "my_scheme_run"] -> no_blank a) /\
  decode_container c = Ok (L "MODULE my_mod SCHEME my_scheme SUBROUTINE my_scheme_run").
Proof.
  eexists. split; [reflexivity|]. split; [|reflexivity].
  intros a [<-|[<-|[<-|[]]]] I; cbn in I; intuition discriminate.
Qed.

(* ---- C68 ---- *)
Definition chr_close (c : ascii) : Z := if Ascii.eqb c ")" then 1%Z else if Ascii.eqb c "(" then (-1)%Z else 0%Z.
Lemma closings_cons c t : closings (c :: t) = (chr_close c + closings t)%Z.
Proof. reflexivity. Qed.
Lemma closings_app a b : closings (a ++ b) = (closings a + closings b)%Z.
Proof. induction a as [|c a IH]; cbn [app]; auto. rewrite !closings_cons, IH. lia. Qed.
Lemma split_back_step c t r p : split_back (c :: t) r p =
  if (p + chr_close c =? 0)%Z then Some (rev t, c :: r) else split_back t (c :: r) (p + chr_close c).
Proof. cbn [split_back]. unfold chr_close. destruct (Ascii.eqb c ")"), (Ascii.eqb c "("); rewrite ?Z.add_0_r; reflexivity. Qed.
Lemma split_back_spec : forall s r p, p = closings r -> (forall u v, r = u ++ v -> v <> [] -> closings v <> 0%Z) ->
  match split_back s r p with
  | Some (a, x) => rev s ++ r = a ++ x /\ x <> [] /\ closings x = 0%Z /\ forall u v, x = u ++ v -> u <> [] -> v <> [] -> closings v <> 0%Z
  | None => forall u v, rev s ++ r = u ++ v -> v <> [] -> closings v <> 0%Z
  end.
Proof.
  induction s as [|c s IH]; intros r p P N; [exact N|]. rewrite split_back_step.
  assert (CL : closings (c :: r) = (p + chr_close c)%Z) by (rewrite closings_cons; lia).
  assert (SUF : forall u v, c :: r = u ++ v -> u <> [] -> v <> [] -> closings v <> 0%Z).
  { intros u v E UN VN. destruct u as [|d u]; [contradiction|]. injection E as <- E. now apply (N u v). }
  destruct (Z.eqb_spec (p + chr_close c) 0) as [E|E].
  - split; [cbn [rev]; now rewrite <- app_assoc|]. split; [discriminate|]. split; [congruence|exact SUF].
  - cbn [rev]. rewrite <- app_assoc. cbn [app]. apply IH; [auto|]. intros u v U V. destruct u as [|d u]; [|apply (SUF (d :: u) v); auto; discriminate].
    cbn in U. subst v. rewrite CL. exact E.
Qed.
(* exact description: the second part is the shortest non-empty end with balanced counts *)
Theorem C68_split s :
  match split_var_name s with
  | Some (a, r) => shortest_balanced_end s a r
  | None => forall u v, s = u ++ v -> v <> [] -> closings v <> 0%Z
  end.
Proof.
  unfold split_var_name, shortest_balanced_end. pose proof (split_back_spec (rev s) [] 0%Z eq_refl) as H. rewrite rev_involutive, app_nil_r in H.
  destruct (split_back (rev s) [] 0) as [[a r]|]; apply H; intros u v E; symmetry in E; apply app_eq_nil in E as [_ ->]; contradiction.
Qed.
Print Assumptions C68_split.
Lemma shortest_unique s a r a' r' : shortest_balanced_end s a r -> shortest_balanced_end s a' r' -> a = a' /\ r = r'.
Proof.
  intros (E1 & N1 & C1 & S1) (E2 & N2 & C2 & S2).
  assert (G : forall (x y x' y' : str), x ++ y = x' ++ y' -> length y <= length y' -> exists z, y' = z ++ y /\ x = x' ++ z).
  { intros x y x'. revert x. induction x' as [|c x' IH]; intros x y' E LE.
    - cbn in E. exists x. auto.
    - destruct x as [|d x]; cbn in E.
      + subst y. cbn [length] in LE. rewrite app_length in LE. lia.
      + injection E as <- E. destruct (IH _ _ E LE) as (z & Z1 & Z2). exists z. split; auto. now rewrite Z2. }
  rewrite E1 in E2. destruct (Nat.le_ge_cases (length r) (length r')) as [LE|LE].
  - destruct (G _ _ _ _ E2 LE) as (z & Z1 & Z2). destruct z as [|c z]; [rewrite app_nil_r in Z2; auto|].
    exfalso. apply (S2 (c :: z) r); auto. discriminate.
  - symmetry in E2. destruct (G _ _ _ _ E2 LE) as (z & Z1 & Z2). destruct z as [|c z]; [rewrite app_nil_r in Z2; auto|].
    exfalso. apply (S1 (c :: z) r'); auto. discriminate.
Qed.
Lemma bal_closings a : balanced a -> closings a = 0%Z.
Proof.
  induction 1 as [|c A B|a b _ IA _ IB|a _ IA]; auto.
  - rewrite closings_cons. unfold chr_close. destruct (Ascii.eqb_spec c ")"), (Ascii.eqb_spec c "("); try contradiction. reflexivity.
  - now rewrite closings_app, IA, IB.
  - rewrite closings_cons, closings_app, IA. reflexivity.
Qed.
Lemma bal_suffix a : balanced a -> forall u v, a = u ++ v -> (0 <= closings v)%Z.
Proof.
  induction 1 as [|c A B|a b HA IA HB IB|a HA IA]; intros u v E.
  - symmetry in E. apply app_eq_nil in E as [_ ->]. cbn. lia.
  - destruct u as [|d u]; cbn in E.
    + subst v. rewrite closings_cons. unfold chr_close. destruct (Ascii.eqb_spec c ")"), (Ascii.eqb_spec c "("); try contradiction. cbn. lia.
    + injection E as _ E. symmetry in E. apply app_eq_nil in E as [_ ->]. cbn. lia.
  - revert a HA IA E. induction u as [|d u IHu]; intros a HA IA E.
    + cbn in E. subst v. rewrite closings_app, (bal_closings a HA), (bal_closings b HB). lia.
    + clear IHu. assert (X : exists z, (a = (d :: u) ++ z /\ v = z ++ b) \/ ((d :: u) = a ++ z /\ b = z ++ v)).
      { apply app_eq_app in E as (z & Z). exists z. exact Z. }
      destruct X as (z & [[X ->]|[_ X]]).
      * rewrite closings_app, (bal_closings b HB). specialize (IA _ _ X). lia.
      * apply (IB _ _ X).
  - destruct u as [|d u]; cbn in E.
    + subst v. rewrite closings_cons, closings_app, (bal_closings a HA). cbn. lia.
    + injection E as <- E. apply app_eq_app in E as (z & [[X ->]|[X Y]]).
      * rewrite closings_app. specialize (IA _ _ X). cbn. lia.
      * destruct z as [|e z]; cbn in Y; [subst v; cbn; lia|]. injection Y as <- Y. symmetry in Y. apply app_eq_nil in Y as [_ ->]. cbn. lia.
Qed.
(* a name with an array reference is split in front of the reference *)
Theorem C68_array n inner : balanced inner -> split_var_name (n ++ L "(" ++ inner ++ L ")") = Some (n, L "(" ++ inner ++ L ")").
Proof.
  intros B. set (s := n ++ L "(" ++ inner ++ L ")"). assert (H : shortest_balanced_end s n (L "(" ++ inner ++ L ")")).
  { split; [reflexivity|]. split; [discriminate|]. split; [apply bal_closings; now constructor|].
    intros u v E UN VN. destruct u as [|d u]; [contradiction|]. cbn in E. injection E as <- E.
    destruct v as [|c v _] using rev_ind; [contradiction|]. rewrite app_assoc in E. apply app_inj_tail in E as [E <-].
    rewrite closings_app. pose proof (bal_suffix inner B u v E). cbn. lia. }
  pose proof (C68_split s) as C. destruct (split_var_name s) as [[a r]|].
  - destruct (shortest_unique _ _ _ _ _ H C) as [<- <-]. reflexivity.
  - exfalso. destruct H as (E & NE & CZ & _). now apply (C _ _ E NE).
Qed.
Print Assumptions C68_array.
Example C68_array_ex : balanced (L ":,a(1),2") /\ split_var_name (L "foo(1)%bar(:,a(1),2)") = Some (L "foo(1)%bar", L "(:,a(1),2)").
Proof.
  split; [|reflexivity].
  change (L ":,a(1),2") with (L ":" ++ L "," ++ L "a" ++ ("("%char :: L "1" ++ L ")") ++ L "," ++ L "2").
  repeat (apply bal_app; [first [apply bal_chr; discriminate|apply bal_par, bal_chr; discriminate]|]). apply bal_chr; discriminate.
Qed.
(* a name that does not end in a reference loses its last character *)
Theorem C68_no_reference_refuted a c : c <> "("%char -> c <> ")"%char -> split_var_name (a ++ [c]) = Some (a, [c]).
Proof.
  intros A B. unfold split_var_name. rewrite rev_app_distr. cbn [rev app split_back].
  destruct (Ascii.eqb_spec c ")"), (Ascii.eqb_spec c "("); try contradiction. cbn. now rewrite rev_involutive.
Qed.
Print Assumptions C68_no_reference_refuted.

(* ---- C69 ---- *)
Definition sign_str (g : sign) : str := match g with SBlank => L "_" | SDot => L "_p_" | SMinus => L "_minus_" | SPlus => L "_plus_" end.
Definition subst (s : str) : str := replace_c "+" (L "_plus_") (replace_c "-" (L "_minus_") (replace_c "." (L "_p_") (replace_c " " (L "_") s))).
Lemma replace_app c b x y : replace_c c b (x ++ y) = replace_c c b x ++ replace_c c b y.
Proof. apply flat_map_app. Qed.
Lemma subst_app x y : subst (x ++ y) = subst x ++ subst y.
Proof. unfold subst. now rewrite !replace_app. Qed.
Lemma replace_id c b s : ~ In c s -> replace_c c b s = s.
Proof.
  induction s as [|d s IH]; intros N; auto. cbn. destruct (Ascii.eqb_spec d c) as [->|E]; [exfalso; apply N; now left|].
  cbn. f_equal. apply IH. intros I. apply N. now right.
Qed.
Lemma plain_not w c : plain_word w -> is_alpha c = false -> is_digit c = false -> ~ In c w.
Proof. intros P A D I. apply P in I as [X|X]; congruence. Qed.
Lemma subst_word w : plain_word w -> subst w = w.
Proof. intros P. unfold subst. rewrite (replace_id " "), (replace_id "."), (replace_id "-"), (replace_id "+"); auto; now apply plain_not. Qed.
Lemma subst_unit w l : plain_word w -> Forall (fun p => plain_word (snd p)) l ->
  subst (unit_text w l) = w ++ flat_map (fun p => sign_str (fst p) ++ snd p) l.
Proof.
  intros P F. unfold unit_text. rewrite subst_app, subst_word by auto. f_equal.
  induction F as [|[g x] l PX F IH]; auto. cbn [flat_map fst snd].
  cbn [snd] in PX. change ((sign_chr g :: x) ++ flat_map (fun p => sign_chr (fst p) :: snd p) l) with ([sign_chr g] ++ x ++ flat_map (fun p => sign_chr (fst p) :: snd p) l).
  rewrite !subst_app, IH, (subst_word x PX), <- app_assoc. f_equal. destruct g; reflexivity.
Qed.
Definition sign_tok (g : sign) : list str := match g with SBlank => [] | SDot => [L "p"] | SMinus => [L "minus"] | SPlus => [L "plus"] end.
Lemma split_us w r : ~ In "_"%char w -> split_on "_" (w ++ "_"%char :: r) = w :: split_on "_" r.
Proof. intros N. rewrite split_cat. change w with (join ["_"%char] [w]) at 1. rewrite split_join; auto; [discriminate|]. intros p [<-|[]]. exact N. Qed.
Lemma split_us0 w : ~ In "_"%char w -> split_on "_" w = [w].
Proof. intros N. change w with (join ["_"%char] [w]) at 1. apply split_join; [discriminate|]. intros p [<-|[]]. exact N. Qed.
Lemma tokens w l : plain_word w -> Forall (fun p => plain_word (snd p)) l ->
  split_on "_" (w ++ flat_map (fun p => sign_str (fst p) ++ snd p) l) = w :: flat_map (fun p => sign_tok (fst p) ++ [snd p]) l.
Proof.
  intros P F. revert w P. induction F as [|[g x] l PX F IH]; intros w P; cbn [flat_map fst snd].
  - rewrite app_nil_r. apply split_us0. now apply plain_not.
  - rewrite <- app_assoc. destruct g; cbn [sign_str sign_tok app].
    + change (L "_" ++ ?y) with ("_"%char :: y). rewrite split_us, IH by (auto; now apply plain_not). reflexivity.
    + change (L "_p_" ++ ?y) with ("_"%char :: L "p" ++ "_"%char :: y). rewrite split_us by (now apply plain_not).
      rewrite split_us by (cbn; intuition discriminate). rewrite IH by auto. reflexivity.
    + change (L "_minus_" ++ ?y) with ("_"%char :: L "minus" ++ "_"%char :: y). rewrite split_us by (now apply plain_not).
      rewrite split_us by (cbn; intuition discriminate). rewrite IH by auto. reflexivity.
    + change (L "_plus_" ++ ?y) with ("_"%char :: L "plus" ++ "_"%char :: y). rewrite split_us by (now apply plain_not).
      rewrite split_us by (cbn; intuition discriminate). rewrite IH by auto. reflexivity.
Qed.
Definition good (p : sign * str) : Prop := plain_word (snd p) /\ ~ sign_word (snd p).
Lemma tokens_inj : forall l l', Forall good l -> Forall good l' ->
  flat_map (fun p => sign_tok (fst p) ++ [snd p]) l = flat_map (fun p => sign_tok (fst p) ++ [snd p]) l' -> l = l'.
Proof.
  induction l as [|[g x] l IH]; intros [|[g' x'] l'] F F' E; auto; cbn [flat_map fst snd] in E.
  - destruct g'; discriminate E.
  - destruct g; discriminate E.
  - inversion_clear F as [|? ? [_ GX] GL]. inversion_clear F' as [|? ? [_ GX'] GL']. cbn [snd] in *. unfold sign_word in *.
    destruct g, g'; cbn [sign_tok app] in E; (injection E as E1 E2 E3 || injection E as E1 E2); try (exfalso; subst; now auto); try discriminate;
      subst; f_equal; auto; (apply IH in E3 || apply IH in E2); auto; congruence.
Qed.
Lemma subst_one w l : plain_word w -> Forall (fun p => plain_word (snd p)) l -> w ++ flat_map (fun p => sign_str (fst p) ++ snd p) l = L "1" -> w = L "1" /\ l = [].
Proof.
  intros P F E. pose proof (tokens w l P F) as T. rewrite E in T. cbn in T. injection T as T1 T2. destruct l as [|[g x] l]; [now subst|].
  cbn [flat_map fst snd] in T2. destruct g; discriminate T2.
Qed.
(* different units get different identifiers *)
Theorem C69_injective_partial w l w' l' i :
  plain_word w -> ~ sign_word w -> Forall good l -> plain_word w' -> ~ sign_word w' -> Forall good l' ->
  unit_text w l <> L "one" -> unit_text w' l' <> L "one" ->
  to_identifier (unit_text w l) = Ok i -> to_identifier (unit_text w' l') = Ok i -> w = w' /\ l = l'.
Proof.
  intros P S F P' S' F' N N' H H'. unfold to_identifier in *. fold (subst (unit_text w l)) in H. fold (subst (unit_text w' l')) in H'. cbv zeta in H, H'.
  assert (G : forall l, Forall good l -> Forall (fun p => plain_word (snd p)) l) by (intros x X; eapply Forall_impl; [|exact X]; intros p [Q _]; exact Q).
  assert (ONE : forall w l, plain_word w -> Forall good l -> unit_text w l <> L "one" -> subst (unit_text w l) <> L "one").
  { intros v k PV FK NV E. apply NV. rewrite subst_unit in E by auto. pose proof (tokens v k PV (G _ FK)) as T. rewrite E in T. cbn in T. injection T as T1 T2.
    destruct k as [|[g x] k]; [cbn in E; rewrite app_nil_r in E; unfold unit_text; cbn; now rewrite app_nil_r|]. cbn [flat_map fst snd] in T2. destruct g; discriminate T2. }
  pose proof (ONE w l P F N) as O1. pose proof (ONE w' l' P' F' N') as O2.
  assert (E : subst (unit_text w l) = subst (unit_text w' l')).
  { assert (OK : forall (b : bool) (x y : str), (if b then Ok x else Raise "Exception") = Ok y -> x = y) by (intros [] x y X; [now injection X|discriminate]).
    apply OK in H, H'. rewrite <- H' in H. clear H'.
    destruct (str_eqb (subst (unit_text w l)) (L "1")) eqn:A, (str_eqb (subst (unit_text w' l')) (L "1")) eqn:B.
    - apply str_eqb_eq in A, B. congruence.
    - exfalso. apply O2. symmetry. exact H.
    - exfalso. apply O1. exact H.
    - exact H. }
  rewrite !subst_unit in E by auto. apply (f_equal (split_on "_")) in E. rewrite !tokens in E by auto. injection E as -> E.
  split; auto. now apply tokens_inj.
Qed.
Print Assumptions C69_injective_partial.
Example C69_injective_ex : unit_text (L "m") [(SBlank, L "s"); (SMinus, L "1")] = L "m s-1" /\ to_identifier (L "m s-1") = Ok (L "m_s_minus_1") /\
  plain_word (L "m") /\ Forall good [(SBlank, L "s"); (SMinus, L "1")].
Proof.
  split; [reflexivity|]. split; [reflexivity|]. split; [intros c [<-|[]]; auto|].
  constructor; [|constructor; [|constructor]]; (split; [intros c [<-|[]]; auto|intros [X|[X|X]]; discriminate X]).
Qed.
(* otherwise different units can share an identifier, and so a conversion function *)
Theorem C69_injective_refuted :
  to_identifier (L "a.b") = to_identifier (L "a p b") /\ to_identifier (L "1") = to_identifier (L "one") /\
  to_identifier (L "m s") = to_identifier (L "m_s").
Proof. repeat split. Qed.
Print Assumptions C69_injective_refuted.
Lemma keywords_reserved s : In s py_keywords <-> In s reserved.
Proof.
  assert (A : forallb (fun k => existsb (str_eqb k) reserved) py_keywords = true) by reflexivity.
  assert (B : forallb (fun k => existsb (str_eqb k) py_keywords) reserved = true) by reflexivity.
  rewrite forallb_forall in A, B. split; intros I; [apply A in I|apply B in I]; apply existsb_exists in I as (k & K & E); apply str_eqb_eq in E; now subst.
Qed.
(* what is returned is an identifier, not a keyword, possibly followed by a newline *)
Theorem C69_identifier s i : to_identifier s = Ok i -> exists j, (i = j \/ i = j ++ [nl]) /\ identifier j /\ ~ In i reserved.
Proof.
  unfold to_identifier. cbv zeta. match goal with |- (if ident_match ?y && _ then _ else _) = _ -> _ => generalize y end. intros x. destruct (ident_match x && negb (is_keyword x)) eqn:E; [|discriminate].
  intros [= <-]. apply andb_true_iff in E as [E K]. destruct x as [|c t]; [discriminate|]. cbn in E. apply andb_true_iff in E as [E1 E2].
  assert (KW : ~ In (c :: t) py_keywords).
  { intros I. apply negb_true_iff in K. unfold is_keyword in K. assert (X : existsb (str_eqb (c :: t)) py_keywords = true); [|congruence].
    apply existsb_exists. exists (c :: t). split; auto. apply str_eqb_refl. }
  assert (W : exists t', (t = t' \/ t = t' ++ [nl]) /\ forall d, In d t' -> is_word d = true).
  { clear - E2. induction t as [|d t IH]; [exists []; split; [auto|intros d []]|]. cbn in E2. destruct (is_word d) eqn:W.
    - destruct (IH E2) as (t' & T & F). exists (d :: t'). split; [destruct T as [->| ->]; auto|]. intros e [<-|I]; auto.
    - apply andb_true_iff in E2 as [N E2]. apply Ascii.eqb_eq in N as ->. destruct t; [|discriminate]. exists []. split; [now right|intros d []]. }
  destruct W as (t' & T & F). exists (c :: t'). split; [destruct T as [->| ->]; auto|]. split; [|now rewrite <- keywords_reserved].
  exists c, t'. split; auto. split; auto. apply orb_true_iff in E1 as [E1|E1]; auto. apply Ascii.eqb_eq in E1. auto.
Qed.
Print Assumptions C69_identifier.
(* every unit of words, signs and blanks that starts with a letter and is no keyword gets its identifier *)
Theorem C69_accepts w l : plain_word w -> Forall (fun p => plain_word (snd p)) l ->
  (exists c t, w = c :: t /\ is_alpha c = true) -> ~ In (unit_text w l) reserved ->
  to_identifier (unit_text w l) = Ok (w ++ flat_map (fun p => sign_str (fst p) ++ snd p) l).
Proof.
  intros P F (c & t & -> & A) K. rewrite <- keywords_reserved in K. unfold to_identifier. fold (subst (unit_text (c :: t) l)). cbv zeta.
  assert (NK : is_keyword (subst (unit_text (c :: t) l)) = false).
  { destruct (is_keyword _) eqn:E; auto. exfalso. apply K. unfold is_keyword in E. apply existsb_exists in E as (k & I & E). apply str_eqb_eq in E.
    assert (NU : ~ In "_"%char k).
    { revert I. clear. intros I U. assert (X : forallb (fun k => negb (existsb (Ascii.eqb "_") k)) py_keywords = true) by reflexivity.
      rewrite forallb_forall in X. specialize (X _ I). apply negb_true_iff in X. assert (Y : existsb (Ascii.eqb "_") k = true); [|congruence].
      apply existsb_exists. exists "_"%char. auto. }
    rewrite <- E in NU. rewrite subst_unit in NU, E by auto. destruct l as [|[g x] l].
    - unfold unit_text. cbn [flat_map] in *. now rewrite E.
    - exfalso. apply NU. cbn [flat_map fst]. apply in_or_app. right. destruct g; cbn; auto 10. }
  rewrite subst_unit in * by auto. replace (str_eqb _ (L "1")) with false.
  - rewrite NK. replace (ident_match _) with true; [reflexivity|]. symmetry. cbn [app ident_match]. rewrite A. cbn [orb andb].
    assert (W : forall x y, (forall d, In d x -> is_word d = true) -> word_to_end (x ++ y) = word_to_end y).
    { induction x as [|d x IH]; intros y D; auto. cbn. rewrite (D d) by now left. apply IH. intros e I. apply D. now right. }
    assert (PW : forall x, plain_word x -> forall d, In d x -> is_word d = true).
    { intros x PX d I. unfold is_word. destruct (PX d I) as [-> | ->]; cbn; auto. now rewrite orb_true_r. }
    rewrite W by (apply PW; intros d I; apply P; now right). clear - F W PW. induction F as [|[g x] l PX F IH]; auto. cbn [flat_map fst snd].
    rewrite <- app_assoc, W by (destruct g; cbn; intuition (subst; reflexivity)). rewrite W by (now apply PW). exact IH.
  - symmetry. apply str_eqb_neq. intros E. cbn in E. injection E as -> _. discriminate A.
Qed.
Print Assumptions C69_accepts.

(* ---- C70: TeX text ---- *)
Definition tex_special (c : ascii) : bool := Ascii.eqb c "%" || Ascii.eqb c "_" || Ascii.eqb c "&".
(* every special character, and no other, gets one backslash *)
Theorem C70_escape s : escape_tex s = flat_map (fun c => if tex_special c then ["\"%char; c] else [c]) s.
Proof.
  unfold escape_tex. induction s as [|c s IH]; auto. change (c :: s) with ([c] ++ s). rewrite !replace_app, IH. cbn [flat_map app].
  rewrite app_nil_r || idtac. f_equal. unfold tex_special.
  destruct (Ascii.eqb_spec c "%") as [->|A]; [reflexivity|]. destruct (Ascii.eqb_spec c "_") as [->|B]; [reflexivity|]. destruct (Ascii.eqb_spec c "&") as [->|D]; [reflexivity|].
  unfold replace_c. cbn [flat_map]. apply Ascii.eqb_neq in A, B, D. rewrite A. cbn [app flat_map]. rewrite B. cbn [app flat_map]. rewrite D. reflexivity.
Qed.
Print Assumptions C70_escape.
Lemma tex_back : forall s t, escape_tex s = escape_tex t -> ~ In "\"%char s -> ~ In "\"%char t -> s = t.
Proof.
  intros s t. rewrite !C70_escape. revert t. induction s as [|c s IH]; intros [|d t] E N M; auto; cbn [flat_map] in E.
  - destruct (tex_special d); discriminate E.
  - destruct (tex_special c); discriminate E.
  - assert (c <> "\"%char) by (intros ->; apply N; now left). assert (d <> "\"%char) by (intros ->; apply M; now left).
    destruct (tex_special c), (tex_special d); cbn [app] in E; injection E as E1 E2; try congruence.
    all: try (injection E2 as E2 E3 || idtac); subst; f_equal; try (apply IH; auto; intros I; [apply N|apply M]; now right).
Qed.
(* text without backslashes can be told back from its TeX form *)
Theorem C70_injective s t : ~ In "\"%char s -> ~ In "\"%char t -> escape_tex s = escape_tex t -> s = t.
Proof. intros. now apply tex_back. Qed.
Print Assumptions C70_injective.
Example C70_ex : escape_tex (L "a_b & 5%") = L "a\_b \& 5\%". Proof. reflexivity. Qed.
