(* DeclProps.v: Fortran declarations (C113-C117). *)
From Verif Require Import PyStr Base LineSpec LineModel LineProofs CheckModel CheckProofs CheckSpec CheckProps DeclModel DeclSpec DeclProofs DeclHeads DeclBody.
From Coq Require Import Lia.
Open Scope nat_scope.
Open Scope list_scope.

(* whatever the expression matches is an intrinsic type for check_fortran_intrinsic *)
Lemma intrinsic_checked line t k n : itype_match line = Some (t, k, n) -> check_fortran_intrinsic t false = Ok (Some t).
Proof.
  unfold itype_match. destruct (intrinsic_match (strip line)) as [[t' r]|] eqn:E; [|discriminate].
  intros H. assert (t' = t) by (destruct (kind_group (lstrip r)); now injection H). subst t'. clear H.
  assert (I : intrinsic_name t).
  { unfold intrinsic_match, dp_match in E. unfold intrinsic_name.
    destruct (after_ci (L "integer") (strip line)) as [[a b]|] eqn:E1; [injection E as <- <-; apply after_ci_some in E1; tauto|].
    destruct (after_ci (L "real") (strip line)) as [[a b]|] eqn:E2; [injection E as <- <-; apply after_ci_some in E2; tauto|].
    destruct (after_ci (L "logical") (strip line)) as [[a b]|] eqn:E3; [injection E as <- <-; apply after_ci_some in E3; tauto|].
    destruct (after_ci (L "double") (strip line)) as [[a b]|] eqn:E4; [|apply after_ci_some in E; tauto].
    destruct (after_ci (L "precision") (lstrip b)) as [[c d]|] eqn:E5; [|apply after_ci_some in E; tauto].
    injection E as <- <-. apply after_ci_some in E4 as [_ E4]. apply after_ci_some in E5 as [_ E5]. do 4 right. exists a, (blanks b), c. repeat split; auto.
    unfold blank, blanks. clear. induction b as [|x b IH]; cbn; auto. destruct (is_space x) eqn:X; cbn; auto. now rewrite X. }
  pose proof (C60_intrinsic t) as [C _]. apply C. unfold type_text. rewrite strip_solid by now apply intrinsic_solid.
  unfold spells in I. destruct I as [I|[I|[I|[I|(d & w & p & -> & I & W & P)]]]]; try (left; rewrite I; cbn; tauto).
  right. exists (lower w), []. split.
  - unfold CheckSpec.all_space. intros c J. apply lower_blank in W. unfold blank in W. rewrite forallb_forall in W. now apply W.
  - rewrite !lower_app. unfold spells in *. rewrite I, P. now rewrite app_nil_r.
Qed.

(* ---- the double colon ---- *)
Lemma cut_colons_at a x : ~ within (L "::") (a ++ L ":") -> cut_colons (a ++ L "::" ++ x) = Some (a, x).
Proof.
  induction a as [|c a IH]; intros N; [reflexivity|]. cbn [app cut_colons].
  assert (N' : ~ within (L "::") (a ++ L ":")) by (intros (u & v & E); apply N; exists (c :: u), v; exact (f_equal (cons c) E)).
  rewrite (IH N'). destruct (a ++ L "::" ++ x) as [|d t] eqn:E; [now destruct a|].
  destruct (Ascii.eqb_spec c ":") as [->|]; [|reflexivity]. destruct (Ascii.eqb_spec d ":") as [->|]; [|reflexivity].
  exfalso. apply N. destruct a as [|e a]; [exists [], []; reflexivity|]. injection E as -> E. exists [], (a ++ L ":"). reflexivity.
Qed.
Lemma cut_colons_none s : ~ within (L "::") s -> cut_colons s = None.
Proof.
  induction s as [|c s IH]; intros N; [reflexivity|]. cbn [cut_colons].
  rewrite IH by (intros (u & v & E); apply N; exists (c :: u), v; exact (f_equal (cons c) E)).
  destruct s as [|d t]; [reflexivity|]. destruct (Ascii.eqb_spec c ":") as [->|]; [|reflexivity]. destruct (Ascii.eqb_spec d ":") as [->|]; [|reflexivity].
  exfalso. apply N. exists [], t. reflexivity.
Qed.
Lemma within_sub x s a b : within x s -> within x (a ++ s ++ b).
Proof. intros (u & v & ->). exists (a ++ u), (v ++ b). now rewrite <- !app_assoc. Qed.
Lemma colons_pad w s v : blank w -> blank v -> within (L "::") (w ++ s ++ v) -> within (L "::") s.
Proof.
  assert (P : forall w s, blank w -> within (L "::") (w ++ s) -> within (L "::") s).
  { clear. induction w as [|c w IH]; intros s B H; auto. unfold blank in B. cbn in B. apply andb_true_iff in B as [C B]. apply IH; auto.
    destruct H as (u & v & E). destruct u as [|d u]; [cbn in E; injection E as -> _; discriminate|]. injection E as _ E. exists u, v. exact E. }
  assert (Q : forall s v, blank v -> within (L "::") (s ++ v) -> within (L "::") s).
  { clear P. intros s0 v0 B (u & t & E). assert (B' : forall c, In c v0 -> c <> ":"%char) by (intros c I ->; unfold blank in B; rewrite forallb_forall in B; apply B in I; discriminate).
    clear B. revert u E. induction s0 as [|c s0 IH]; intros u E.
    - exfalso. cbn in E. apply (B' ":"%char); auto. rewrite E. apply in_app_iff. right. now left.
    - destruct u as [|d u].
      + cbn in E. injection E as -> E. destruct s0 as [|e s0]; [exfalso; cbn in E; destruct v0 as [|e v0]; [discriminate|injection E as -> E; apply (B' ":"%char); auto; now left]|].
        injection E as -> E. exists [], s0. reflexivity.
      + injection E as <- E. destruct (IH u E) as (u' & t' & ->). exists (c :: u'), t'. reflexivity. }
  intros W V H. apply (P w) in H; auto. now apply (Q s v).
Qed.
Lemma attrs_end al : (forall a, In a al -> attr_ok a) -> ~ within (L "::") (attrs_text al) -> ~ within (L "::") (attrs_text al ++ L ":").
Proof.
  intros H N. assert (E : attrs_text al = [] \/ exists y z, attrs_text al = y ++ [z] /\ z <> ":"%char).
  { destruct al as [|a0 al0]; [now left|right]. destruct (@exists_last _ (a0 :: al0) ltac:(easy)) as (l & a & E). rewrite E in *.
    unfold attrs_text. rewrite map_app, concat_app. cbn [map List.concat]. rewrite app_nil_r, attr_core. assert (O : attr_ok a) by (apply H, in_app_iff; right; now left).
    destruct (core_solid a O) as [_ (t & c & CE & C)]. rewrite CE.
    assert (CN : c <> ":"%char).
    { destruct (name_alpha a O) as [NA NN]. unfold core in CE. destruct (a_arg a) as [x|].
      - rewrite !app_assoc in CE. apply app_inj_tail in CE as [_ <-]. discriminate.
      - rewrite app_nil_r in CE. intros ->. assert (I : In ":"%char (a_name a)) by (rewrite CE; apply in_app_iff; right; now left). revert I. now apply (noin is_alpha). }
    destruct O as (_ & _ & B & _). destruct (a_after a) as [|z0 w0] eqn:W.
    - exists (List.concat (map (fun a1 => L "," ++ attr_text a1) l) ++ L "," ++ a_before a ++ t), c. split; auto. rewrite app_nil_r. now rewrite <- !app_assoc.
    - destruct (@exists_last _ (z0 :: w0) ltac:(easy)) as (w & z & EW). rewrite EW in *.
      exists (List.concat (map (fun a1 => L "," ++ attr_text a1) l) ++ L "," ++ a_before a ++ (t ++ [c]) ++ w), z. split; [now rewrite <- !app_assoc|].
      intros ->. unfold blank in B. rewrite forallb_app in B. cbn in B. rewrite andb_false_r in B. discriminate. }
  destruct E as [->|(y & z & E & Z)].
  - intros (u & v & X). apply (f_equal (@length ascii)) in X. rewrite !app_length in X. cbn in X. lia.
  - rewrite E in *. intros (u & v & X). destruct v as [|v0 v1] eqn:V.
    + rewrite app_nil_r in X. change (L "::") with (L ":" ++ L ":") in X. rewrite app_assoc in X. apply app_inj_tail in X as [X _]. apply app_inj_tail in X as [_ X]. auto.
    + destruct (@exists_last _ (v0 :: v1) ltac:(easy)) as (v' & z' & EV). rewrite EV in X. rewrite !app_assoc in X. apply app_inj_tail in X as [X _]. apply N. exists u, v'. now rewrite <- app_assoc in X.
Qed.

(* ---- the whole declaration ---- *)
Lemma rest_opens w1 al colons w2 el w3 : blank w1 -> blank w2 -> (colons = L "::" \/ (colons = [] /\ al = [] /\ el <> [])) -> (forall e, In e el -> ent_ok e) ->
  exists w c t, w1 ++ attrs_text al ++ colons ++ w2 ++ ents_text el ++ w3 = w ++ c :: t /\ blank w /\ opener c.
Proof.
  intros W1 W2 C H. destruct al as [|a al].
  - destruct C as [->|(-> & _ & N)].
    + exists w1, ":"%char, (L ":" ++ w2 ++ ents_text el ++ w3). split; [reflexivity|]. split; auto. right. now left.
    + destruct el as [|e el]; [easy|]. destruct (H e (or_introl eq_refl)) as (B & _ & _ & (c & t & E & A & _) & _).
      assert (J : exists r, join (L ",") (ent_text e :: map ent_text el) = ent_text e ++ r).
      { destruct (map ent_text el); [exists []; cbn; now rewrite app_nil_r|rewrite join_cons2; eauto]. }
      destruct J as (r & J). exists (w1 ++ w2 ++ e_before e), c. eexists. split; [|split; [unfold blank in *; rewrite !forallb_app, W1, W2, B; reflexivity|right; right; auto]].
      unfold ents_text. cbn [map]. rewrite J. unfold ent_text. rewrite E. cbn [attrs_text map List.concat app]. rewrite <- !app_assoc. cbn [app]. reflexivity.
  - exists w1, ","%char. eexists. split; [unfold attrs_text; cbn [map List.concat app L list_ascii_of_string]; reflexivity|]. split; auto. now left.
Qed.
Lemma reassemble_rstrip s : reassemble_parens (rstrip s) = reassemble_parens s.
Proof.
  destruct (blank_or_last s) as [B|(p & c & v & -> & C & V)].
  - rewrite rstrip_nil by auto. symmetry. apply (reassemble_pre s []) in B. now rewrite app_nil_r in B.
  - rewrite rstrip_after by auto. rewrite (rstrip_nil v) by auto. change (c :: v) with ([c] ++ v). rewrite app_assoc. symmetry. now apply reassemble_post.
Qed.
Lemma rstrip_within x s : within x (rstrip s) -> within x s.
Proof.
  destruct (blank_or_last s) as [B|(p & c & v & -> & C & V)].
  - rewrite rstrip_nil by auto. intros (u & t & E). destruct u, x; try discriminate. exists [], s. reflexivity.
  - rewrite rstrip_after by auto. rewrite rstrip_nil by auto. intros (u & t & E). exists u, (t ++ v). change (c :: v) with ([c] ++ v). rewrite app_assoc, E. now rewrite <- !app_assoc.
Qed.
Lemma parse_decl_gen scheme logger h T K ddt al el w0 w1 w2 w3 colons c : solid h ->
  blank w0 -> blank w1 -> blank w2 -> blank w3 -> comment c -> (colons = L "::" \/ (colons = [] /\ al = [] /\ el <> [])) ->
  (forall a, In a al -> attr_ok a) -> (forall e, In e el -> ent_ok e) -> ~ In "!"%char (h ++ attrs_text al ++ ents_text el) ->
  ~ within (L "::") (attrs_text al) -> ~ within (L "::") (ents_text el) ->
  (forall w o t, blank w -> opener o -> w1 ++ attrs_text al ++ colons ++ w2 ++ ents_text el ++ w3 = w ++ o :: t -> ~ In "!"%char (h ++ w ++ o :: rstrip t) ->
    exists n, ftype_factory (h ++ w ++ o :: rstrip t) = Ok (Some (mkFT T K ddt n)) /\ length h <= n /\ n <= length h + length w) ->
  exists n, parse_fortran_var_decl scheme logger (w0 ++ h ++ w1 ++ attrs_text al ++ colons ++ w2 ++ ents_text el ++ w3 ++ c) =
    (id <- scan_attrs scheme logger (map (fun a => lower (core a)) al) None None ;;
     Ok (map (fun e => make_var (mkFT T K ddt n) (map (fun a => lower (core a)) al) (fst id) (snd id) (e_name e) (own e)) el)).
Proof.
  intros HD W0 W1 W2 W3 C CO HA HE NB NA NE HF.
  set (R := w1 ++ attrs_text al ++ colons ++ w2 ++ ents_text el ++ w3).
  assert (BODY : w0 ++ h ++ w1 ++ attrs_text al ++ colons ++ w2 ++ ents_text el ++ w3 ++ c = (w0 ++ h ++ R) ++ c) by (unfold R; now rewrite <- !app_assoc).
  assert (NBR : ~ In "!"%char (h ++ R)).
  { rewrite !in_app_iff in NB. unfold R. rewrite !in_app_iff. intros X. apply NB. clear NB.
    destruct X as [X|[X|[X|[X|[X|[X|X]]]]]]; auto; exfalso; revert X; try (now apply (noin is_space)). destruct CO as [->|(-> & _)]; cbn; intuition discriminate. }
  unfold parse_fortran_var_decl. rewrite BODY. rewrite comment_cut; auto.
  2:{ rewrite in_app_iff. intros [X|X]; [revert X; now apply (noin is_space)|auto]. }
  destruct (rest_opens w1 al colons w2 el w3 W1 W2 CO HE) as (w & o & t & RE & W & O). fold R in RE.
  assert (OS := proj1 (opener_facts o O)). destruct HD as [(hc & ht & HH & HC) _].
  assert (S : strip (w0 ++ h ++ R) = h ++ w ++ o :: rstrip t).
  { rewrite strip_blank_l by auto. unfold strip. rewrite RE. rewrite HH at 1. cbn [app]. rewrite lstrip_head by auto.
    change (hc :: ht ++ w ++ o :: t) with ((hc :: ht) ++ w ++ o :: t). rewrite <- HH. rewrite app_assoc, rstrip_after by auto. now rewrite <- app_assoc. }
  rewrite S. destruct (HF w o t W O RE) as (n & F & N1 & N2).
  { intros X. apply NBR. rewrite RE. rewrite !in_app_iff in *. cbn in *. destruct X as [X|[X|[X|X]]]; auto. right. right. right. now apply rstrip_in. }
  rewrite F. cbn [bind]. cbv iota beta. cbn [ft_len]. exists n.
  assert (VP : strip (skipn n (h ++ w ++ o :: rstrip t)) = strip R).
  { rewrite skipn_app, skipn_all2 by auto. cbn [app]. rewrite skipn_app. replace (n - length h - length w) with 0 by lia. cbn [skipn].
    assert (BS : blank (skipn (n - length h) w)) by (unfold blank in *; rewrite <- (firstn_skipn (n - length h) w), forallb_app in W; now apply andb_true_iff in W as [_ W]).
    rewrite strip_blank_l by auto. rewrite RE, strip_blank_l by auto. rewrite !strip_from by auto. f_equal.
    destruct (blank_or_last t) as [BT|(p & z & v & -> & Z & V)]; [rewrite (rstrip_nil t BT); reflexivity|]. rewrite (rstrip_after p z v Z), (rstrip_nil v V). now rewrite rstrip_end. }
  rewrite VP. clear VP F S. destruct CO as [->|(-> & -> & EN)].
  - assert (SR : strip R = attrs_text al ++ L "::" ++ rstrip (w2 ++ ents_text el ++ w3)).
    { unfold R. rewrite strip_blank_l by auto. destruct al as [|a al0]; [cbn [attrs_text map List.concat app]; change (L "::" ++ w2 ++ ents_text el ++ w3) with (":"%char :: [] ++ ":"%char :: w2 ++ ents_text el ++ w3); rewrite strip_from, rstrip_after by reflexivity; reflexivity|].
      set (A := attrs_text (a :: al0)). assert (AE : exists A', A = ","%char :: A') by (unfold A, attrs_text; cbn; eauto). destruct AE as (A' & AE).
      unfold strip. rewrite AE. cbn [app]. rewrite lstrip_head by reflexivity.
      change (","%char :: A' ++ L "::" ++ w2 ++ ents_text el ++ w3) with ((","%char :: A') ++ L "::" ++ w2 ++ ents_text el ++ w3).
      change (L "::" ++ w2 ++ ents_text el ++ w3) with (L ":" ++ ":"%char :: w2 ++ ents_text el ++ w3). rewrite app_assoc. rewrite rstrip_after by reflexivity. now rewrite <- app_assoc. }
    rewrite SR. rewrite cut_colons_at by now apply attrs_end.
    assert (NW : ~ within (L "::") (rstrip (w2 ++ ents_text el ++ w3))) by (intros X; apply NE; apply rstrip_within in X; now apply (colons_pad w2 _ w3)).
    unfold second. rewrite (cut_colons_none _ NW).
    assert (PA : parse_attr_specs (strip (attrs_text al)) = Ok (map (fun a => lower (core a)) al)).
    { assert (P1 : parse_attr_specs (strip (attrs_text al)) = parse_attr_specs (attrs_text al)) by (unfold parse_attr_specs; now rewrite strip_idem). rewrite P1. now apply (parse_attrs_ok al []). }
    rewrite PA. cbn [bind]. rewrite reassemble_strip, reassemble_rstrip, reassemble_pre, reassemble_post, ents_reassemble by auto. cbn [bind].
    destruct (scan_attrs scheme logger (map (fun a => lower (core a)) al) None None) as [[i d]|m]; [|reflexivity]. cbn [bind fst snd]. now apply entities_ok.
  - assert (SR : strip R = strip (ents_text el)).
    { unfold R. cbn [attrs_text map List.concat app]. rewrite strip_blank_l, strip_blank_l by auto. now rewrite strip_blank_r. }
    rewrite SR. assert (NW : ~ within (L "::") (strip (ents_text el))).
    { intros X. apply NE. destruct (strip_split (ents_text el)) as (a & b & _ & _ & E). rewrite E. now apply within_sub. }
    rewrite (cut_colons_none _ NW). rewrite reassemble_strip, ents_reassemble by auto. cbn [bind map scan_attrs fst snd]. now apply entities_ok.
Qed.

Lemma parse_decl scheme logger h T K ddt al el line : head h T K ddt -> declaration h al el line ->
  exists n, parse_fortran_var_decl scheme logger line =
    (id <- scan_attrs scheme logger (map (fun a => lower (core a)) al) None None ;;
     Ok (map (fun e => make_var (mkFT T K ddt n) (map (fun a => lower (core a)) al) (fst id) (snd id) (e_name e) (own e)) el)).
Proof.
  intros HD (w0 & w1 & w2 & w3 & colons & c & -> & W0 & W1 & W2 & W3 & C & CO & HA & HE & NB & NA & NE).
  apply parse_decl_gen; auto; [now apply (head_solid h T K ddt)|tauto|]. intros w o t W O _ N. now apply head_ok.
Qed.

(* ---- C113 ---- *)
(* [v] is the variable declared by the entity [e], with the type, kind and attributes of
   the declaration; [intent] is its intent if any *)
Definition says (T : str) (K : option str) (ddt : bool) (al : list attr) (intent : option str) (e : ent) (v : dvar) : Prop :=
  dv_name v = e_name e /\ dv_type v = T /\ dv_ddt v = ddt /\ dv_kind v = K /\
  (dv_optional v = true <-> is_set "optional" al) /\ (dv_allocatable v = true <-> is_set "allocatable" al) /\
  dv_intent v = intent /\
  dv_dims v = match e_dims e with
              | Some d => L "(" ++ d ++ L ")"
              | None => match last_arg "dimension" al with Some x => L "(" ++ lower x ++ L ")" | None => L "()" end
              end.
Lemma value_last f n al : value f n al None = option_map f (last_arg n al).
Proof. unfold value, last_arg. destruct (List.find (named n) (rev al)) as [a|]; [|reflexivity]. now destruct (a_arg a). Qed.
Lemma says_all T K ddt n al el intent : (forall a, In a al -> attr_ok a) ->
  Forall2 (says T K ddt al intent) el
    (map (fun e => make_var (mkFT T K ddt n) (map (fun a => lower (core a)) al) intent (value (fun x => L "(" ++ lower x ++ L ")") "dimension" al None) (e_name e) (own e)) el).
Proof.
  intros HA. induction el as [|e el IH]; [constructor|]. cbn [map]. constructor; auto. unfold says, make_var. cbn [dv_name dv_type dv_ddt dv_kind dv_optional dv_allocatable dv_intent dv_dims ft_str ft_kind ft_ddt].
  split; auto. split; auto. split; auto. split; auto. split; [apply flag_set; cbn; auto|]. split; [apply flag_set; cbn; auto|]. split; auto.
  unfold own. rewrite value_last. destruct (e_dims e); [reflexivity|]. now destruct (last_arg "dimension" al).
Qed.
Lemma decl_attrs h al el line : declaration h al el line -> forall a, In a al -> attr_ok a.
Proof. intros (w0 & w1 & w2 & w3 & colons & c & _ & _ & _ & _ & _ & _ & _ & HA & _). exact HA. Qed.
(* In a scheme, every declaration in standard form gives its variables, in order. *)
Theorem C113_declaration : forall logger h T K ddt al el line, head h T K ddt -> declaration h al el line ->
  exists vs, parse_fortran_var_decl true logger line = Ok vs /\
             Forall2 (says T K ddt al (option_map (fun x => lower (strip x)) (last_arg "intent" al))) el vs.
Proof.
  intros logger h T K ddt al el line HD D. destruct (parse_decl true logger h T K ddt al el line HD D) as (n & ->).
  assert (HA := decl_attrs _ _ _ _ D). rewrite scan_scheme by auto. cbn [bind fst snd]. eexists. split; [reflexivity|].
  rewrite (value_last (fun x => lower (strip x))). now apply says_all.
Qed.
Print Assumptions C113_declaration.
(* Elsewhere the same holds, without intents: a declaration with an intent is an error, or
   its intent is ignored with a warning if there is a logger. *)
Theorem C113_no_intent_outside_schemes : forall logger h T K ddt al el line, head h T K ddt -> declaration h al el line ->
  ((exists a, In a al /\ named "intent" a = true) -> logger = false -> exists m, parse_fortran_var_decl false logger line = Raise m) /\
  ((forall a, In a al -> named "intent" a = false) \/ logger = true ->
   exists vs, parse_fortran_var_decl false logger line = Ok vs /\ Forall2 (says T K ddt al None) el vs).
Proof.
  intros logger h T K ddt al el line HD D. destruct (parse_decl false logger h T K ddt al el line HD D) as (n & ->).
  assert (HA := decl_attrs _ _ _ _ D). rewrite scan_other by auto. split.
  - intros (a & I & N) ->. assert (E : existsb (named "intent") al = true) by (apply existsb_exists; eauto). rewrite E. cbn. eauto.
  - intros H. assert (E : existsb (named "intent") al && negb logger = false).
    { destruct H as [H| ->]; [|apply andb_false_r]. destruct (existsb (named "intent") al) eqn:E; auto. apply existsb_exists in E as (a & I & N). rewrite (H a I) in N. discriminate. }
    rewrite E. cbn [bind fst snd]. eexists. split; [reflexivity|]. now apply says_all.
Qed.
Print Assumptions C113_no_intent_outside_schemes.
(* deciding the side conditions of examples *)
Fixpoint bal (k : Z) (s : str) : bool :=
  match s with
  | [] => Z.eqb k 0
  | c :: t => let k' := (k + (if Ascii.eqb c "(" then 1 else if Ascii.eqb c ")" then -1 else 0))%Z in Z.leb 0 k' && bal k' t
  end.
Lemma bal_spec s : forall k, (0 <= k)%Z -> bal k s = true -> (k + paren_sum s = 0)%Z /\ forall p q, s = p ++ q -> (0 <= k + paren_sum p)%Z.
Proof.
  induction s as [|c s IH]; intros k K; cbn [bal paren_sum].
  - intros E. apply Z.eqb_eq in E. split; [lia|]. intros p q E2. destruct p; [cbn; lia|discriminate].
  - cbv zeta. intros E. apply andb_true_iff in E as [A B]. apply Z.leb_le in A. destruct (IH _ A B) as [Z P]. split; [lia|].
    intros p q E. destruct p as [|d p]; [cbn; lia|]. injection E as <- E. apply P in E. cbn. lia.
Qed.
Lemma balanced_by s : bal 0 s = true -> balanced s.
Proof. intros H. apply bal_spec in H as [Z P]; [|lia]. split; [lia|]. intros p q E. apply P in E. lia. Qed.
Lemma one_by s : Z.eqb (paren_sum s) 0 && negb (has_c "," s) = true -> one_item s.
Proof.
  intros H. apply andb_true_iff in H as [Z N]. apply Z.eqb_eq in Z. apply negb_true_iff, has_c_not in N. split; auto.
  intros p q E. exfalso. apply N. rewrite E. apply in_app_iff. right. now left.
Qed.
Lemma no_colons_by s : cut_colons s = None -> ~ within (L "::") s.
Proof.
  intros N (u & v & E). revert s N E. induction u as [|c u IH]; intros s N E; subst s; [discriminate|]. cbn [app cut_colons] in N.
  destruct (u ++ L "::" ++ v) as [|d t] eqn:X; [now destruct u|]. destruct (Ascii.eqb c ":" && Ascii.eqb d ":"); [discriminate|].
  destruct (cut_colons (d :: t)) as [[? ?]|] eqn:C; [discriminate|]. now apply (IH (d :: t)).
Qed.
Definition ex_attrs : list attr :=
  [mkAttr (L " ") (L "Intent") (L " ") (Some (L " INOUT ")) []; mkAttr [] (L "dimension") [] (Some (L "im, size(x,1)")) (L " "); mkAttr (L " ") (L "OPTIONAL") [] None (L " ")].
Definition ex_ents : list ent :=
  [mkEnt (L " ") (L "qgrs") [] None (L " ") None; mkEnt (L " ") (L "Tsfc_2") (L " ") (Some (L ":,0:n")) (L " ") (Some (L "> null()"))].
Example C113_example : exists line, head (L "REAL (kind = kind_phys)") (L "REAL") (Some (L "kind_phys")) false /\
  declaration (L "REAL (kind = kind_phys)") ex_attrs ex_ents line /\
  line = L "  REAL (kind = kind_phys), Intent ( INOUT ),dimension(im, size(x,1)) , OPTIONAL :: qgrs , Tsfc_2 (:,0:n) => null()  ! winds, a = b :: c" /\
  parse_fortran_var_decl true false line =
  Ok [mkDV (L "qgrs") (L "REAL") false (Some (L "kind_phys")) true false (Some (L "inout")) (L "(im, size(x,1))");
      mkDV (L "Tsfc_2") (L "REAL") false (Some (L "kind_phys")) true false (Some (L "inout")) (L "(:,0:n)")].
Proof.
  eexists. split.
  { apply (h_kind_eq (L "REAL") (L " ") [] (L "kind") (L " ") (L " ") (L "kind_phys") []); try reflexivity; [right; left; reflexivity|]. split; [easy|]. split; [reflexivity|]. discriminate. }
  split; [|split; [reflexivity|vm_compute; reflexivity]].
  exists (L "  "), [], [], (L "  "), (L "::"), (L "! winds, a = b :: c"). split; [reflexivity|]. do 4 (split; [reflexivity|]). split; [right; eexists; reflexivity|]. split; [now left|].
  split.
  { intros a [<-|[<-|[<-|[]]]]; (do 3 (split; [reflexivity|]); split; [cbn; tauto|split; [intros x X; try discriminate X; injection X as <-; apply balanced_by; reflexivity|]]).
    - intros _ X. discriminate X.
    - intros _ X. discriminate X.
    - intros [X|X]; discriminate X. }
  split.
  { intros e [<-|[<-|[]]].
    - do 3 (split; [reflexivity|]). split; [eexists _, _; split; [reflexivity|split; reflexivity]|]. split; discriminate.
    - do 3 (split; [reflexivity|]). split; [eexists _, _; split; [reflexivity|split; reflexivity]|]. split.
      + intros d [= <-]. split; [apply balanced_by; reflexivity|]. cbn. split; [|split]; intros X; repeat destruct X as [X|X]; discriminate || auto.
      + intros i [= <-]. split; [apply one_by; reflexivity|cbn; intros X; repeat destruct X as [X|X]; discriminate || auto]. }
  split; [cbn; intros X; repeat destruct X as [X|X]; discriminate || auto|].
  split; apply no_colons_by; reflexivity.
Qed.
