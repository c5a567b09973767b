(* MetaProofs.v: lemmas about the lines of metadata files. *)
From Verif Require Import PyStr Regex PhaseModel PhaseSpec PhaseProofs CheckModel CheckSpec CheckProofs CheckProps ReqModel ReqProofs MetaModel MetaSpec.
From Coq Require Import Lia.
Open Scope nat_scope.
Open Scope list_scope.

Lemma blank_spec l : blank_metadata_line l = true <-> blank_line l.
Proof.
  unfold blank_metadata_line, blank_line. destruct l as [|x l]; [split; auto|]. rewrite re_prefix_spec. split.
  - intros (p & q & E & H). right. unfold blank_re in H. apply in_cat in H as (w & c & -> & W & H). apply in_cls in H as (a & -> & A).
    apply star_space in W. exists w, a, q. rewrite E, <- app_assoc. split; [reflexivity|]. split; auto.
    apply orb_true_iff in A as [A|A]; apply Ascii.eqb_eq in A; auto.
  - intros [H|(w & c & r & E & W & H)]; [discriminate|]. exists (w ++ [c]), r. rewrite <- app_assoc. split; auto.
    apply in_cat. exists w, [c]. split; auto. split; [now apply star_space|]. apply in_cls. exists c. split; auto.
    destruct H as [-> | ->]; reflexivity.
Qed.
Lemma blank_false l : blank_metadata_line l = false <-> ~ blank_line l.
Proof. rewrite <- blank_spec. destruct (blank_metadata_line l); split; congruence. Qed.

(* the first character that is no blank *)
Lemma first_nonspace w c r w' c' r' : all_space w -> all_space w' -> is_space c = false -> is_space c' = false ->
  w ++ c :: r = w' ++ c' :: r' -> w = w' /\ c = c' /\ r = r'.
Proof.
  intros W. revert w'. induction w as [|x w IH]; intros [|y w'] W' C C' E; cbn in E.
  - injection E as -> ->. auto.
  - injection E as -> ->. rewrite (W' y) in C; [discriminate|now left].
  - injection E as <- <-. rewrite (W x) in C'; [discriminate|now left].
  - injection E as -> E. destruct (IH (fun c H => W c (or_intror H)) w') as (-> & -> & ->); auto. intros d D. apply W'. now right.
Qed.
Lemma marker_spec w l : lower w = w -> re_prefix (marker_re w) l = true <-> marker w l.
Proof.
  intros LW. rewrite re_prefix_spec. unfold marker_re, marker. split.
  - intros (p & q & -> & H). apply in_cat in H as (w1 & y & -> & H1 & H). apply in_cat in H as (b & y1 & -> & Hb & H). apply in_ch in Hb as ->.
    apply in_cat in H as (w2 & y2 & -> & H2 & H). apply in_cat in H as (t & y3 & -> & Ht & H). apply in_wordi in Ht.
    apply in_cat in H as (w3 & y4 & -> & H3 & H). apply in_ch in H as ->. apply star_space in H1, H2, H3.
    exists w1, w2, t, w3, q. rewrite LW in Ht. repeat split; auto. repeat rewrite <- app_assoc. reflexivity.
  - intros (w1 & w2 & t & w3 & r & -> & H1 & H2 & H3 & Ht).
    exists (w1 ++ L "[" ++ w2 ++ t ++ w3 ++ L "]"), r. split; [repeat rewrite <- app_assoc; reflexivity|].
    apply in_cat. do 2 eexists. split; [reflexivity|]. split; [now apply star_space|].
    apply in_cat. do 2 eexists. split; [reflexivity|]. split; [now apply in_ch|].
    apply in_cat. do 2 eexists. split; [reflexivity|]. split; [now apply star_space|].
    apply in_cat. do 2 eexists. split; [reflexivity|]. split; [apply in_wordi; congruence|].
    apply in_cat. do 2 eexists. split; [reflexivity|]. split; [now apply star_space|]. now apply in_ch.
Qed.
Lemma marker_not_blank w l : marker w l -> ~ blank_line l.
Proof.
  intros (w1 & w2 & t & w3 & r & -> & H1 & _) [E|(v & c & q & E & V & C)].
  - destruct w1; discriminate.
  - cbn [app L list_ascii_of_string] in E. apply first_nonspace in E as (_ & <- & _); auto.
    + destruct C; discriminate.
    + destruct C; subst c; reflexivity.
Qed.
Lemma table_start_spec l : table_start l = true <-> table_line l.
Proof.
  unfold table_start, table_line. rewrite andb_true_iff, negb_true_iff, blank_false, marker_spec by reflexivity.
  split; [tauto|]. intros H. split; auto. eapply marker_not_blank; eauto.
Qed.
Lemma header_start_spec l : header_start l = true <-> section_line l.
Proof.
  unfold header_start, section_line. rewrite andb_true_iff, negb_true_iff, blank_false, marker_spec by reflexivity.
  split; [tauto|]. intros H. split; auto. eapply marker_not_blank; eauto.
Qed.
Lemma table_start_false l : table_start l = false <-> ~ table_line l.
Proof. rewrite <- table_start_spec. destruct (table_start l); split; congruence. Qed.
Lemma header_start_false l : header_start l = false <-> ~ section_line l.
Proof. rewrite <- header_start_spec. destruct (header_start l); split; congruence. Qed.

(* ---- variable lines ---- *)
Lemma bracket_re r l : re_full (Cat (ch "[") (Cat ws_re (Cat r (Cat ws_re (ch "]"))))) l = true <-> exists s, in_re r s /\ bracketed s l.
Proof.
  rewrite re_full_spec. unfold bracketed. split.
  - intros H. apply in_cat in H as (b & y & -> & Hb & H). apply in_ch in Hb as ->. apply in_cat in H as (w1 & y1 & -> & H1 & H).
    apply in_cat in H as (s & y2 & -> & Hs & H). apply in_cat in H as (w2 & y3 & -> & H2 & H). apply in_ch in H as ->.
    apply star_space in H1, H2. exists s. split; auto. exists w1, w2. auto.
  - intros (s & Hs & w1 & w2 & -> & H1 & H2). apply in_cat. do 2 eexists. split; [reflexivity|]. split; [now apply in_ch|].
    apply in_cat. do 2 eexists. split; [reflexivity|]. split; [now apply star_space|].
    apply in_cat. do 2 eexists. split; [reflexivity|]. split; [assumption|].
    apply in_cat. do 2 eexists. split; [reflexivity|]. split; [now apply star_space|]. now apply in_ch.
Qed.
Lemma removelast_snoc {A} (l : list A) x : removelast (l ++ [x]) = l.
Proof. induction l as [|a [|b l] IH]; cbn in *; auto. now rewrite IH. Qed.
Lemma strip_clean_mid w1 s w2 : all_space w1 -> all_space w2 -> s <> [] ->
  (forall c, hd_error s = Some c -> is_space c = false) -> (forall t c, s = t ++ [c] -> is_space c = false) -> strip (w1 ++ s ++ w2) = s.
Proof.
  intros W1 W2 N H T. unfold strip. rewrite lstrip_all_space by auto. destruct s as [|c s]; [congruence|].
  assert (lstrip ((c :: s) ++ w2) = (c :: s) ++ w2) as -> by (unfold lstrip; cbn; now rewrite (H c eq_refl)).
  rewrite rstrip_all_space by auto. unfold rstrip. destruct (rev (c :: s)) as [|x r] eqn:R.
  - apply (f_equal (@length ascii)) in R. rewrite rev_length in R. discriminate.
  - assert (S : c :: s = rev r ++ [x]) by (rewrite <- (rev_involutive (c :: s)), R; reflexivity).
    cbn [dropwhile]. rewrite (T _ _ S). rewrite S. reflexivity.
Qed.
Lemma name_ends n : fortran_name n -> n <> [] /\ (forall c, hd_error n = Some c -> is_space c = false) /\ (forall t c, n = t ++ [c] -> is_space c = false).
Proof.
  intros F. destruct (fname_word n F) as [N W]. split; auto. split; intros.
  - destruct n; [congruence|]. injection H as ->. apply word_facts. apply W. now left.
  - subst n. apply word_facts. apply W. apply in_app_iff. right. now left.
Qed.
Lemma ref_ends s n dims : array_ref s n dims -> s <> [] /\ (forall c, hd_error s = Some c -> is_space c = false) /\ (forall t c, s = t ++ [c] -> is_space c = false).
Proof.
  intros (F & _ & _ & w & ps & _ & _ & ->). destruct (name_ends n F) as (N & H & _). split; [destruct n; [congruence|discriminate]|]. split; intros.
  - apply H. destruct n; [congruence|]. exact H0.
  - replace (n ++ w ++ L "(" ++ join (L ",") ps ++ L ")") with ((n ++ w ++ L "(" ++ join (L ",") ps) ++ [")"%char]) in H0 by (repeat rewrite <- app_assoc; reflexivity).
    apply app_inj_tail in H0 as [_ <-]. reflexivity.
Qed.
Lemma between_spec s l : s <> [] -> (forall c, hd_error s = Some c -> is_space c = false) -> (forall t c, s = t ++ [c] -> is_space c = false) ->
  bracketed s l -> between l = s.
Proof.
  intros N H T (w1 & w2 & -> & W1 & W2). unfold between. cbn [L list_ascii_of_string app tl].
  replace (w1 ++ s ++ w2 ++ ["]"%char]) with ((w1 ++ s ++ w2) ++ ["]"%char]) by (repeat rewrite <- app_assoc; reflexivity).
  rewrite removelast_snoc. now apply strip_clean_mid.
Qed.
Lemma takewhile_stop {A} (f : A -> bool) a b : (forall c, In c a -> f c = true) -> match b with x :: _ => f x = false | [] => True end -> takewhile f (a ++ b) = a /\ dropwhile f (a ++ b) = b.
Proof.
  intros H S. induction a as [|x a IH]; cbn.
  - destruct b as [|x b]; cbn; auto. now rewrite S.
  - rewrite (H x) by now left. destruct IH as [-> ->]; auto. intros c C. apply H. now right.
Qed.
Lemma dropwhile_to (c : ascii) a b : ~ In c a -> dropwhile (fun x => negb (Ascii.eqb x c)) (a ++ c :: b) = c :: b.
Proof.
  intros H. induction a as [|x a IH]; cbn.
  - now rewrite Ascii.eqb_refl.
  - destruct (Ascii.eqb x c) eqn:E; [apply Ascii.eqb_eq in E; subst; exfalso; apply H; now left|]. cbn. apply IH. intros I. apply H. now right.
Qed.
(* group 1 and group 2 put together are again a reference with the same subscripts *)
Lemma vref_name_spec s n dims l : array_ref s n dims -> between l = s -> array_ref (vref_name l) n dims.
Proof.
  intros R B. unfold vref_name. rewrite B. pose proof R as (F & D & Len & w & ps & W & P & E). rewrite E.
  destruct (fname_word n F) as [N Wd].
  assert (T : takewhile is_word (n ++ w ++ L "(" ++ join (L ",") ps ++ L ")") = n).
  { apply takewhile_stop; auto. destruct w as [|x w]; cbn; auto.
    assert (is_space x = true) by (apply W; now left). destruct x as [[] [] [] [] [] [] [] []]; try discriminate; reflexivity. }
  assert (DW : dropwhile (fun c => negb (Ascii.eqb c "(")) (n ++ w ++ L "(" ++ join (L ",") ps ++ L ")") = "("%char :: join (L ",") ps ++ L ")").
  { rewrite app_assoc. apply (dropwhile_to "("). intros I. apply in_app_iff in I as [I|I]; [apply Wd, word_facts in I; tauto|apply W, space_facts in I; tauto]. }
  rewrite T, DW.
  cbn [tl].
  destruct ps as [|p ps]; [apply F2_len in P; cbn in P; lia|]. inversion P as [|p' d ps' dims' P1 P2]; subst.
  destruct P1 as (a & b & -> & A & Bs).
  assert (SD : subscript d) by (inversion D; auto). destruct (subscript_facts d SD) as [ND SF].
  assert (J : join (L ",") ((a ++ d ++ b) :: ps) ++ L ")" = a ++ join (L ",") ((d ++ b) :: ps) ++ L ")").
  { rewrite !join_cons. repeat rewrite <- app_assoc. reflexivity. }
  assert (Ls : lstrip (a ++ join (L ",") ((d ++ b) :: ps) ++ L ")") = join (L ",") ((d ++ b) :: ps) ++ L ")").
  { rewrite lstrip_all_space by auto. rewrite join_cons. destruct d as [|x d]; [congruence|]. unfold lstrip. cbn. destruct (SF x (or_introl eq_refl)) as [-> _]. reflexivity. }
  split; auto. split; auto. split; auto. exists [], ((d ++ b) :: ps). split; [intros ? []|]. split.
  - constructor; auto. exists [], b. cbn. split; auto. split; [intros ? []|auto].
  - cbn [app]. do 2 f_equal. exact (eq_trans (f_equal lstrip J) Ls).
Qed.
Lemma no_nl_end s c t : s = t ++ [c] -> c <> nl -> ~ ends_nl s.
Proof. intros -> N (u & E). apply app_inj_tail in E as [_ E]. congruence. Qed.
Lemma ref_no_nl s n dims : array_ref s n dims -> ~ ends_nl s.
Proof.
  intros R. destruct (ref_ends _ _ _ R) as (_ & _ & T). intros (t & E). specialize (T _ _ E). discriminate.
Qed.
Lemma name_no_nl n : fortran_name n -> ~ ends_nl n.
Proof. intros R. destruct (name_ends _ R) as (_ & _ & T). intros (t & E). specialize (T _ _ E). discriminate. Qed.
Lemma ref_ok_name n : fortran_name n -> check_fortran_ref n false 0 = Ok (Some n).
Proof.
  intros F. unfold check_fortran_ref, check_fortran_id. assert (re_dollar fortran_id_re n = true) as -> by (apply id_dollar; auto using name_no_nl). reflexivity.
Qed.
Lemma ref_ok_ref s n dims : array_ref s n dims -> check_fortran_ref s false 0 = Ok (Some s).
Proof.
  intros R. unfold check_fortran_ref, check_fortran_id.
  assert (re_dollar fortran_id_re s = false) as ->.
  { destruct (re_dollar fortran_id_re s) eqn:E; auto. apply id_dollar in E; [|eauto using ref_no_nl]. exfalso. eapply ref_not_name; eauto. }
  cbn. assert (re_dollar scalar_ref_re s = true) as ->; auto. apply re_dollar_spec. left. apply scalar_ref_spec. eauto.
Qed.

Lemma variable_start_name n l : fortran_name n -> bracketed n l -> variable_start l = Ok (Some n).
Proof.
  intros F B. unfold variable_start. assert (re_full var_re l = true) as ->.
  { apply bracket_re. exists n. split; auto. now apply fortran_id_spec. }
  destruct (name_ends n F) as (N & H & T). rewrite (between_spec n l N H T B), ref_ok_name by auto. reflexivity.
Qed.
Lemma variable_start_ref s n dims l : array_ref s n dims -> bracketed s l -> exists nm, variable_start l = Ok (Some nm) /\ array_ref nm n dims.
Proof.
  intros R B. destruct (ref_ends _ _ _ R) as (N & H & T). pose proof (between_spec s l N H T B) as E.
  unfold variable_start. assert (re_full var_re l = false) as ->.
  { destruct (re_full var_re l) eqn:Q; auto. apply bracket_re in Q as (s' & F & B'). apply fortran_id_spec in F.
    destruct (name_ends s' F) as (N' & H' & T'). rewrite (between_spec s' l N' H' T' B') in E. subst s'. exfalso. eapply ref_not_name; eauto. }
  assert (re_full vref_re l = true) as ->.
  { apply bracket_re. exists s. split; auto. apply scalar_ref_spec. eauto. }
  exists (vref_name l). pose proof (vref_name_spec s n dims l R E) as V. rewrite (ref_ok_ref _ _ _ V). auto.
Qed.
Lemma variable_start_cases l :
  (variable_start l = Ok None /\ ~ variable_line l) \/
  (exists n, variable_start l = Ok (Some n) /\ variable_line l /\
     ((fortran_name n /\ bracketed n l) \/ exists s m dims, array_ref s m dims /\ bracketed s l /\ array_ref n m dims)).
Proof.
  destruct (re_full var_re l) eqn:Q.
  - right. apply bracket_re in Q as (n & F & B). apply fortran_id_spec in F. exists n. rewrite (variable_start_name n l F B). split; auto. split; [left; eauto|]. auto.
  - destruct (re_full vref_re l) eqn:Q2.
    + right. apply bracket_re in Q2 as (s & F & B). apply scalar_ref_spec in F as (m & dims & R).
      destruct (variable_start_ref s m dims l R B) as (nm & V & R'). exists nm. split; auto. split; [right; eauto|]. right. eauto 8.
    + left. unfold variable_start. rewrite Q, Q2. split; auto. intros [(n & F & B)|(s & n & dims & R & B)].
      * assert (re_full var_re l = true); [|congruence]. apply bracket_re. exists n. split; auto. now apply fortran_id_spec.
      * assert (re_full vref_re l = true); [|congruence]. apply bracket_re. exists s. split; auto. apply scalar_ref_spec. eauto.
Qed.

(* ---- settings ---- *)
Lemma split_eq_some s k v : split_eq s = Some (k, v) <-> s = k ++ L "=" ++ v /\ ~ In "="%char k.
Proof.
  revert k v. induction s as [|c s IH]; intros k v; cbn [split_eq].
  - split; [discriminate|]. intros [E _]. destruct k; discriminate.
  - destruct (Ascii.eqb c "=") eqn:Q.
    + apply Ascii.eqb_eq in Q. subst c. split; [intros [= <- <-]; split; auto|]. intros [E N]. destruct k as [|x k]; [injection E as ->; reflexivity|].
      injection E as <- _. exfalso. apply N. now left.
    + apply Ascii.eqb_neq in Q. destruct (split_eq s) as [[a b]|] eqn:S.
      * split.
        -- intros [= <- <-]. destruct (proj1 (IH a b) eq_refl) as [-> N]. split; auto. intros [I|I]; [congruence|contradiction].
        -- intros [E N]. destruct k as [|x k]; [injection E as E _; congruence|]. injection E as <- E.
           assert (X : Some (a, b) = Some (k, v)) by (apply IH; split; auto; intros I; apply N; now right). injection X as -> ->. reflexivity.
      * split; [discriminate|]. intros [E N]. destruct k as [|x k]; [injection E as E _; congruence|]. injection E as <- E.
        assert (X : None = Some (k, v)) by (apply IH; split; auto; intros I; apply N; now right). discriminate.
Qed.
Lemma split_eq_none s : split_eq s = None <-> ~ In "="%char s.
Proof.
  induction s as [|c s IH]; cbn [split_eq]; [split; auto|]. destruct (Ascii.eqb c "=") eqn:Q.
  - apply Ascii.eqb_eq in Q. subst. split; [discriminate|]. intros N. exfalso. apply N. now left.
  - apply Ascii.eqb_neq in Q. destruct (split_eq s) as [[a b]|].
    + split; [discriminate|]. intros N. assert (X : Some (a, b) = None) by (apply IH; intros I; apply N; now right). discriminate.
    + split; [|auto]. intros _ [I|I]; [congruence|]. now apply IH.
Qed.
Lemma split_props_spec l kvs : split_props l = Ok kvs <-> Forall2 (fun p kv => p = fst kv ++ L "=" ++ snd kv /\ ~ In "="%char (fst kv)) l kvs.
Proof.
  revert kvs. induction l as [|p l IH]; intros kvs; cbn [split_props].
  - split; [intros [= <-]; constructor|]. intros H. inversion H. reflexivity.
  - destruct (split_eq p) as [[k v]|] eqn:S.
    + rewrite bind_ok. split.
      * intros (r & R & [= <-]). constructor; [now apply split_eq_some|]. now apply IH.
      * intros H. inversion H as [|p' [k' v'] l' r P R]; subst. exists r. split; [now apply IH|].
        cbn in P. apply split_eq_some in P. rewrite S in P. injection P as -> ->. reflexivity.
    + split; [discriminate|]. intros H. inversion H as [|p' [k' v'] l' r P R]; subst. cbn in P. apply split_eq_some in P. congruence.
Qed.
Lemma pieces_spec s kvs : split_props (split_on "|" s) = Ok kvs <-> pieces s kvs.
Proof.
  rewrite split_props_spec. unfold pieces. split.
  - intros H. split; [intros ->; inversion H as [E|]; now apply (split_on_nonempty "|" s)|]. split.
    + rewrite <- (join_split "|" s) at 1. f_equal. clear -H. remember (split_on "|" s) as l. clear Heql.
      induction H as [|p kv l kvs [-> _] _ IH]; cbn; [reflexivity|]. now rewrite IH.
    + intros k v I. assert (G : forall l kvs, Forall2 (fun p kv => p = fst kv ++ L "=" ++ snd kv /\ ~ In "="%char (fst kv)) l kvs -> In (k, v) kvs -> In (k ++ L "=" ++ v) l /\ ~ In "="%char k).
      { clear. intros l kvs H. induction H as [|p kv l kvs [-> N] _ IH]; intros []; [subst; cbn; auto|]. destruct (IH H) as [A B]. split; auto. now right. }
      destruct (G _ _ H I) as [A B]. split; auto. apply split_on_no_sep in A. split; intros X; apply A; apply in_app_iff; auto. right. right. exact X.
  - intros (N & -> & P). rewrite (split_join "|").
    + clear N. induction kvs as [|[k v] kvs IH]; cbn; constructor.
      * cbn. split; auto. apply (P k v). now left.
      * apply IH. intros k' v' I. apply P. now right.
    + destruct kvs; [congruence|discriminate].
    + intros p I. apply in_map_iff in I as ([k v] & <- & I). cbn. destruct (P k v I) as (A & B & C). intros X. apply in_app_iff in X as [X|[X|X]]; auto. discriminate.
Qed.
Lemma config_spec l items : parse_config_line l = Ok items <-> (blank_line l /\ items = []) \/ (~ blank_line l /\ pieces (strip l) items).
Proof.
  unfold parse_config_line. destruct (blank_metadata_line l) eqn:B.
  - apply blank_spec in B. split; [intros [= <-]; auto|]. intros [[_ ->]|[N _]]; [reflexivity|contradiction].
  - apply blank_false in B. rewrite pieces_spec. tauto.
Qed.
Definition norm (kv : str * str) : str * str := (lower (strip (fst kv)), strip (snd kv)).
Lemma line_settings_spec l kvs : line_settings l kvs <-> exists items, parse_config_line l = Ok items /\ kvs = map norm items.
Proof.
  unfold line_settings. split.
  - intros [[B ->]|(N & ps & P & ->)].
    + exists []. split; auto. apply config_spec. auto.
    + exists ps. split; auto. apply config_spec. auto.
  - intros (items & H & ->). apply config_spec in H as [[B ->]|[N P]]; [left; auto|right; eauto].
Qed.
Lemma settings_nil kvs : settings [] kvs <-> kvs = [].
Proof. split; [intros (e & F & ->); inversion F; reflexivity|intros ->; exists []; split; [constructor|reflexivity]]. Qed.
Lemma settings_cons l r kvs : settings (l :: r) kvs <-> exists items kvs', parse_config_line l = Ok items /\ settings r kvs' /\ kvs = map norm items ++ kvs'.
Proof.
  split.
  - intros (e & F & ->). inversion F as [|? x ? e' X F']; subst. apply line_settings_spec in X as (items & P & ->). exists items, (List.concat e'). split; auto. split; auto. exists e'. auto.
  - intros (items & kvs' & P & (e & F & ->) & ->). exists (map norm items :: e). split; [|reflexivity]. constructor; auto. apply line_settings_spec. eauto.
Qed.
