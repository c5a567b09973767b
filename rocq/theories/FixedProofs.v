(* FixedProofs.v: fixed form. *)
From Verif Require Import Base PyStr LineModel LineSpec LineProofs PreprocModel ScanModel ScanSpec ScanProofs MergeProofs MergeText.
Open Scope nat_scope.
Open Scope list_scope.

Lemma fscanned_cons x c t cm x' : ~ (c = "!"%char /\ x = Code) -> fscanned (ctx_step x c) t cm x' -> fscanned x (c :: t) (succ_o cm) x'.
Proof.
  intros N [H1 H2]. constructor; [|exact H2].
  apply (succ_iff cm (fun p => nth_error (c :: t) p = Some "!"%char /\ ctx_before x (c :: t) p = Code)).
  - rewrite before_0. intros [[= ->] ->]. now apply N.
  - intros p. rewrite H1. reflexivity.
Qed.
Lemma fixed_loop_spec s : forall i q q' cm, good_q q -> fixed_loop i q s = (q', cm) ->
  exists cm1, fscanned (ctx_q q) s cm1 (ctx_q q') /\ good_q q' /\ cm = option_map (Nat.add i) cm1.
Proof.
  induction s as [|c t IH]; intros i q q' cm G H; cbn [fixed_loop] in H.
  - injection H as <- <-. exists None. split; [|auto]. constructor; [intros p; split; [discriminate|]; intros [K _]; destruct p; discriminate|]. cbn. destruct q; reflexivity.
  - assert (ST : forall q1, ctx_step (ctx_q q) c = ctx_q q1 -> good_q q1 -> ~ (c = "!"%char /\ q = None) -> fixed_loop (S i) q1 t = (q', cm) ->
       exists cm1, fscanned (ctx_q q) (c :: t) cm1 (ctx_q q') /\ good_q q' /\ cm = option_map (Nat.add i) cm1).
    { intros q1 E G1 N H1. destruct (IH _ _ _ _ G1 H1) as (cm1 & F & G' & ->). exists (succ_o cm1). split; [|split; [auto|symmetry; apply map_succ]].
      apply fscanned_cons; [intros [A B]; apply N; split; auto; destruct q; [discriminate|auto]|]. now rewrite E. }
    destruct (is_space c) eqn:SP.
    { apply (ST q); auto; [apply step_space; auto; intros k Hk; now apply (good_space q)|intros [-> _]; discriminate]. }
    destruct q as [k|].
    + destruct (Ascii.eqb_spec c k) as [-> |NE].
      * apply (ST None); auto; [cbn; now rewrite Ascii.eqb_refl|now left|intros [_ A]; discriminate].
      * apply (ST (Some k)); auto; [cbn; destruct (Ascii.eqb_spec c k); congruence|intros [_ A]; discriminate].
    + destruct (Ascii.eqb_spec c squote) as [-> |N1]; [apply (ST (Some squote)); auto; [right; now left|intros [A _]; discriminate]|].
      destruct (Ascii.eqb_spec c dquote) as [-> |N2]; [apply (ST (Some dquote)); auto; [right; now right|intros [A _]; discriminate]|].
      destruct (Ascii.eqb_spec c "!") as [-> |N3].
      * injection H as <- <-. exists (Some 0). split; [|split; [auto|cbn; now rewrite Nat.add_0_r]]. constructor.
        -- intros [|p]; cbn [nth_error]; [cbn; tauto|]. rewrite before_S. change (ctx_step (ctx_q None) "!") with Comment. rewrite before_comment. split; [discriminate|]. intros [_ K]. discriminate.
        -- cbn [length]. rewrite before_S. change (ctx_step (ctx_q None) "!") with Comment. now rewrite before_comment.
      * apply (ST None); auto; [|intros [A _]; congruence]. cbn. destruct (Ascii.eqb_spec c "'"); [now elim N1|]. destruct (Ascii.eqb_spec c """"); [now elim N2|]. destruct (Ascii.eqb_spec c "!"); [congruence|]. reflexivity.
Qed.
Lemma cont_iff l : fixed_continue l = true <-> is_cont l.
Proof.
  unfold fixed_continue, is_cont. split.
  - intros H. apply andb_prop in H as [H H3]. apply andb_prop in H as [H1 H2]. destruct (nth_error l 5) as [c|] eqn:N; [|discriminate]. apply andb_prop in H3 as [A B].
    exists c, (skipn 6 l). split; [|split; [intros ->; discriminate|intros ->; discriminate]]. rewrite (cut_amp l 5 c N) at 1. f_equal. apply Nat.eqb_eq in H2.
    destruct (firstn 5 l) as [|a1 [|a2 [|a3 [|a4 [|a5 [|]]]]]]; try discriminate. cbn [forallb] in H1. rewrite !andb_true_iff in H1. destruct H1 as (E1 & E2 & E3 & E4 & E5 & _).
    apply Ascii.eqb_eq in E1, E2, E3, E4, E5. subst. reflexivity.
  - intros (c & r & -> & A & B). cbn. destruct (Ascii.eqb_spec c "0"); [contradiction|]. destruct (Ascii.eqb_spec c " "); [contradiction|]. reflexivity.
Qed.
Lemma take_repeat k r : takewhile (Ascii.eqb " ") (List.repeat " "%char k ++ "!"%char :: r) = List.repeat " "%char k.
Proof. induction k; cbn; auto. now f_equal. Qed.
Lemma take_all s : takewhile (Ascii.eqb " ") s = List.repeat " "%char (length (takewhile (Ascii.eqb " ") s)).
Proof. induction s as [|c s IH]; auto. cbn [takewhile]. destruct (Ascii.eqb_spec " " c) as [<-|N]; cbn; auto. now f_equal. Qed.
Lemma fcomment_iff l k : fixed_comment l = Some k <-> is_fcomment l k.
Proof.
  unfold fixed_comment, is_fcomment. destruct l as [|c t].
  - split; [discriminate|]. intros [(_ & c & r & E & _)|(_ & r & E)]; [discriminate|]. destruct k; discriminate.
  - destruct (Ascii.eqb_spec c "C") as [-> |N1].
    { cbn [orb]. split; [intros [= <-]; left; split; auto; exists "C"%char, t; auto|]. intros [(-> & _)|(_ & r & E)]; auto. destruct k; discriminate. }
    destruct (Ascii.eqb_spec c "c") as [-> |N2].
    { cbn [orb]. split; [intros [= <-]; left; split; auto; exists "c"%char, t; auto|]. intros [(-> & _)|(_ & r & E)]; auto. destruct k; discriminate. }
    destruct (Ascii.eqb_spec c "*") as [-> |N3].
    { cbn [orb]. split; [intros [= <-]; left; split; auto; exists "*"%char, t; auto|]. intros [(-> & _)|(_ & r & E)]; auto. destruct k; discriminate. }
    cbn [orb]. remember (c :: t) as l eqn:EL. cbv zeta.
    assert (SP : skipn (length (takewhile (Ascii.eqb " ") l)) l = dropwhile (Ascii.eqb " ") l).
    { clear. induction l as [|a l IH]; auto. cbn [takewhile dropwhile]. destruct (Ascii.eqb " " a); auto. }
    rewrite SP. split.
    + destruct (dropwhile (Ascii.eqb " ") l) as [|k0 r] eqn:D; [discriminate|]. destruct (Ascii.eqb_spec k0 "!") as [-> |]; [|discriminate].
      destruct (length (takewhile (Ascii.eqb " ") l) <=? 4) eqn:LE; [|discriminate]. cbn [andb]. intros [= <-]. right. split; [now apply Nat.leb_le|]. exists r.
      rewrite <- take_all. rewrite <- D. symmetry. apply take_drop_while.
    + intros [(_ & c0 & r & E & H)|(LE & r & E)].
      * rewrite EL in E. injection E as -> ->. destruct H as [-> |[-> | ->]]; contradiction.
      * rewrite E, take_repeat, repeat_length. assert (DR : dropwhile (Ascii.eqb " ") (List.repeat " "%char k ++ "!"%char :: r) = "!"%char :: r) by (clear; induction k; auto).
        rewrite DR. cbn. apply Nat.leb_le in LE. now rewrite LE.
Qed.
Lemma fskip_iff l : rf_skip true l = true <-> fskipped l.
Proof.
  unfold fskipped. rewrite <- skip_iff. unfold rf_skip. destruct (lstrip l) as [|c t]; [tauto|]. cbn [andb]. rewrite orb_true_iff. cbn [orb]. split.
  - intros [H|H]; auto. right. destruct (fixed_comment l) as [k|] eqn:E; [|discriminate]. exists k. now apply fcomment_iff.
  - intros [H|(k & H)]; auto. left. assert (E : fixed_comment l = Some k) by (apply fcomment_iff; auto). now rewrite E.
Qed.
Lemma fskip_iff_f l : rf_skip true l = false <-> ~ fskipped l.
Proof. rewrite <- fskip_iff. destruct (rf_skip true l); split; congruence. Qed.
Lemma scan_fixed l s d ci s' d' cm : scan_fixed_line l s d = Ok (ci, s', d', cm) ->
  exists x x', flags s d x /\ flags s' d' x' /\ (in_quote x -> is_cont l) /\
  ((is_cont l /\ ci = Some 5 /\ exists cm1, fscanned x (skipn 6 (rstrip l)) cm1 x' /\ cm = option_map (Nat.add 6) cm1) \/
   (~ is_cont l /\ ci = None /\ x' = x /\ exists k, is_fcomment l k /\ cm = Some k) \/
   (~ is_cont l /\ (forall k, ~ is_fcomment l k) /\ ci = None /\ fscanned x (rstrip l) cm x')).
Proof.
  unfold scan_fixed_line. cbv zeta. destruct ((s || d) && negb (fixed_continue l)) eqn:C1; [discriminate|]. destruct (s && d) eqn:C2; [discriminate|].
  pose proof (q_flags s d C2) as F. destruct (flags_q s d _ F) as (_ & G & _).
  assert (IQ : in_quote (ctx_q (quote_of s d)) -> is_cont l).
  { intros Q. apply (flags_quote s d _ F) in Q. rewrite Q in C1. apply cont_iff. destruct (fixed_continue l); auto. }
  destruct (fixed_continue l) eqn:C.
  - destruct (fixed_loop 6 (quote_of s d) (skipn 6 (rstrip l))) as [q cm2] eqn:FL. intros [= <- <- <- <-].
    destruct (fixed_loop_spec _ _ _ _ _ G FL) as (cm1 & S1 & G' & ->). exists (ctx_q (quote_of s d)), (ctx_q q). split; auto. split; [now apply good_flags|]. split; auto. left.
    split; [now apply cont_iff|]. split; auto. exists cm1. split; auto. destruct cm1; reflexivity.
  - assert (NC : ~ is_cont l) by (rewrite <- cont_iff; congruence). destruct (fixed_comment l) as [k|] eqn:FC.
    + rewrite skipn_all. cbn [fixed_loop]. intros [= <- <- <- <-]. exists (ctx_q (quote_of s d)), (ctx_q (quote_of s d)). split; auto. split; [now apply good_flags|]. split; auto. right. left.
      split; auto. split; auto. split; auto. exists k. split; auto. now apply fcomment_iff.
    + cbn [skipn]. destruct (fixed_loop 0 (quote_of s d) (rstrip l)) as [q cm2] eqn:FL. intros [= <- <- <- <-].
      destruct (fixed_loop_spec _ _ _ _ _ G FL) as (cm1 & S1 & G' & ->). exists (ctx_q (quote_of s d)), (ctx_q q). split; auto. split; [now apply good_flags|]. split; auto. right. right.
      split; auto. split; [intros k K; apply fcomment_iff in K; congruence|]. split; auto. destruct cm1; exact S1.
Qed.
Definition fnum (done : list str) (m : mst) : Prop := forall k, m_num m = Some k -> k < length done.
Lemma fixed_abs done m l t : fnum done m -> merge_fixed (done ++ l :: t) (length done) l m = lift t (merge_fixed (done ++ [l]) (length done) l m).
Proof.
  intros G. unfold merge_fixed. destruct (scan_fixed_line l (m_s m) (m_d m)) as [(((ci & s) & d) & cm)|e]; cbn [bind lift]; auto.
  destruct (match cm, ci with None, None => (None, Some (length done)) | _, _ => (m_prev m, m_num m) end) as [prev num] eqn:E.
  destruct ci as [c|]; [|cbn [lift]; rewrite <- app_assoc; reflexivity].
  assert (prev = m_prev m /\ num = m_num m) as [-> ->] by (destruct cm; injection E as <- <-; auto). clear E.
  assert (NT : forall k, m_num m = Some k -> nth_error (done ++ l :: t) k = nth_error (done ++ [l]) k) by (intros k K; rewrite !nth_error_app1 by auto; auto).
  assert (W : forall k z, m_num m = Some k -> (l1 <- write_at (done ++ l :: t) (Some k) z ;; l2 <- write_at l1 (Some (length done)) [] ;; Ok (l2, mkM None s d (Some z) (m_num m))) =
              lift t (l1 <- write_at (done ++ [l]) (Some k) z ;; l2 <- write_at l1 (Some (length done)) [] ;; Ok (l2, mkM None s d (Some z) (m_num m)))).
  { intros k z K. specialize (G k K). unfold write_at. rewrite !app_length. cbn [length]. replace (k <? length done + S (length t)) with true by (symmetry; apply Nat.ltb_lt; lia).
    replace (k <? length done + 1) with true by (symmetry; apply Nat.ltb_lt; lia). cbn [bind]. rewrite (list_set_app done (l :: t)), (list_set_app done [l]) by auto. rewrite !app_length, !list_set_length. cbn [length].
    replace (length done <? length done + S (length t)) with true by (symmetry; apply Nat.ltb_lt; lia). replace (length done <? length done + 1) with true by (symmetry; apply Nat.ltb_lt; lia). cbn [bind lift].
    pose proof (list_set_mid (list_set done k z) t l ([] : str)) as W1. pose proof (list_set_mid (list_set done k z) [] l ([] : str)) as W2. rewrite list_set_length in W1, W2. rewrite W1, W2. rewrite <- app_assoc. reflexivity. }
  destruct (m_num m) as [k|] eqn:K.
  - destruct (m_prev m) as [pv|]; cbn [bind]; [now apply W|]. rewrite (NT k eq_refl). destruct (nth_error (done ++ [l]) k) as [z|]; cbn [bind lift]; auto.
  - destruct (m_prev m) as [pv|]; reflexivity.
Qed.
Definition fstep (done : list str) (m : mst) (l : str) := merge_fixed (done ++ [l]) (length done) l m.
Fixpoint frun (done : list str) (m : mst) (rest : list str) : res (list str) :=
  match rest with
  | [] => Ok done
  | l :: t => if rf_skip true l then frun (done ++ [l]) m t else w <- fstep done m l ;; frun (fst w) (snd w) t
  end.
Lemma write_len a i z b : write_at a i z = Ok b -> length b = length a.
Proof. unfold write_at. destruct i as [k|]; [|discriminate]. destruct (k <? length a); [|discriminate]. intros [= <-]. apply list_set_length. Qed.
Lemma write_lt a k z b : write_at a (Some k) z = Ok b -> k < length a.
Proof. unfold write_at. destruct (k <? length a) eqn:E; [|discriminate]. intros _. now apply Nat.ltb_lt. Qed.
Lemma fstep_good done m l ls m' : fnum done m -> fstep done m l = Ok (ls, m') -> fnum ls m' /\ length ls = S (length done).
Proof.
  intros G H. unfold fstep, merge_fixed in H. apply bind_ok in H as ((((ci & s) & d) & cm) & _ & H).
  destruct ci as [c|].
  - assert (E : (match cm with Some _ => (m_prev m, m_num m) | None => (m_prev m, m_num m) end) = (m_prev m, m_num m)) by (destruct cm; reflexivity).
    assert (E2 : (match cm, Some c with None, None => (None, Some (length done)) | _, _ => (m_prev m, m_num m) end) = (m_prev m, m_num m)) by (destruct cm; reflexivity).
    rewrite E2 in H. apply bind_ok in H as (pv & _ & H). cbv zeta in H. apply bind_ok in H as (l1 & W1 & H). apply bind_ok in H as (l2 & W2 & [= <- <-]).
    apply write_len in W2. pose proof (write_len _ _ _ _ W1) as L1. rewrite L1, app_length in W2. cbn in W2. split; [|lia]. intros k K. cbn in K. specialize (G k K). lia.
  - destruct cm; injection H as <- <-; rewrite app_length; cbn [length]; (split; [|lia]); intros k K; cbn in K; rewrite app_length; cbn; [specialize (G k K); lia|injection K as <-; lia].
Qed.
Section WithParser.
Variable parse : str -> option (list expr).
Definition no_hash (l : str) : Prop := is_preproc_line l = false.
Lemma rf_frun rest : forall fuel p done m d, length rest < fuel -> (forall l, In l rest -> plain_line l /\ no_hash l) -> fnum done m ->
  po_lines p = done ++ rest -> (rest <> [] -> po_next p = S (length done)) ->
  match rf_loop parse fuel true p [] d m (hd_error rest) (length done), frun done m rest with
  | Ok p', Ok out => po_lines p' = out
  | Raise _, Raise _ => True
  | _, _ => False
  end.
Proof.
  induction rest as [|l t IH]; intros fuel p done m d F P G EL EN; (destruct fuel as [|fuel]; [cbn in F; lia|]); cbn [rf_loop frun hd_error].
  - now rewrite app_nil_r in EL.
  - specialize (EN ltac:(discriminate)). cbn [length] in F.
    assert (PT : forall z, In z t -> plain_line z) by (intros z Z; apply P; now right).
    destruct (rf_skip true l) eqn:SK.
    + destruct (read_next p (done ++ [l]) t) as (p' & A & B & C); [split; [rewrite EL, <- app_assoc; reflexivity|rewrite app_length; cbn; lia]|auto|]. rewrite A. cbv beta iota.
      apply (IH fuel p' (done ++ [l]) m); auto; [lia|intros z Z; apply P; now right|]. intros k K. specialize (G k K). rewrite app_length. lia.
    + unfold process_line. destruct (P l (or_introl eq_refl)) as [_ NH]. unfold no_hash in NH. rewrite NH. cbn [bind orb in_true_region forallb negb].
      rewrite EL, (fixed_abs done m l t G). fold (fstep done m l). destruct (fstep done m l) as [(ls & m')|e] eqn:AB; cbn [lift bind]; auto.
      destruct (fstep_good done m l ls m' G AB) as [G' LL]. cbn [fst snd].
      destruct (read_next (set_lines p (ls ++ t)) ls t) as (p' & A & B & C); [split; [reflexivity|cbn; now rewrite LL]|auto|].
      rewrite A. apply (IH fuel p' ls m'); auto; [lia|]. intros z Z. apply P. now right.
Qed.
Lemma rf_fixed d lines : (forall l, In l lines -> plain_line (rstrip l) /\ no_hash (rstrip l)) ->
  match rf_file parse true d lines, frun [] mst0 (map rstrip lines) with
  | Ok p', Ok out => po_lines p' = out
  | Raise _, Raise _ => True
  | _, _ => False
  end.
Proof.
  intros P. assert (P' : forall l, In l (map rstrip lines) -> plain_line l /\ no_hash l) by (intros l I; apply in_map_iff in I as (z & <- & Z); auto).
  unfold rf_file. change (curr_line (po_new (map rstrip lines) 0)) with (next_line (po_new (map rstrip lines) 0)).
  destruct (read_next (po_new (map rstrip lines) 0) [] (map rstrip lines)) as (p & A & B & C); [split; auto|intros l I; now apply P'|]. rewrite A. cbn [length] in *.
  assert (FU : length (map rstrip lines) < S (length lines)) by (rewrite map_length; lia).
  apply (rf_frun (map rstrip lines) (S (length lines)) p [] mst0 d FU P'); auto. intros k K. discriminate.
Qed.
End WithParser.
(* the first line of a statement *)
Lemma fstep_first done m l ls m' : ~ fskipped l -> ~ is_cont l -> no_comment l -> fstep done m l = Ok (ls, m') ->
  ls = done ++ [l] /\ m_prev m' = None /\ m_num m' = Some (length done) /\ m_cc m' = None.
Proof.
  intros NS NC NO H. unfold fstep, merge_fixed in H. apply bind_ok in H as ((((ci & s) & d) & cm) & SC & H).
  apply scan_fixed in SC as (x & x' & F & F' & IQ & [(C & _)|[(_ & _ & _ & k & K & _)|(_ & _ & -> & FS)]]); [contradiction|exfalso; apply NS; right; eauto|].
  assert (x = Code). { destruct x; auto; [exfalso; apply NC, IQ; eexists; reflexivity|]. destruct F as [(_ & _ & D)|[(_ & _ & D)|(_ & _ & D)]]; discriminate. }
  subst x. assert (cm = None). { destruct cm as [p|]; auto. destruct FS as [FC _]. destruct (proj1 (FC p) eq_refl) as [A B]. now apply NO in A. }
  subst cm. injection H as <- <-. auto.
Qed.
(* a continuation line *)
Lemma fstep_cont pre h0 mid m c ls m' : is_cont c -> m_num m = Some (length pre) -> fstep (pre ++ h0 :: mid) m c = Ok (ls, m') ->
  let t := rstrip (match m_prev m with Some pv => pv | None => firstn 72 h0 end ++ columns c) in
  ls = pre ++ t :: mid ++ [[]] /\ m_prev m' = Some t /\ m_num m' = Some (length pre).
Proof.
  intros C N H. unfold fstep, merge_fixed in H. apply bind_ok in H as ((((ci & s) & d) & cm) & SC & H).
  apply scan_fixed in SC as (x & x' & F & F' & IQ & [(_ & -> & _)|[(D & _)|(D & _)]]); [|contradiction|contradiction].
  assert (E2 : (match cm, Some 5 with None, None => (None, Some (length (pre ++ h0 :: mid))) | _, _ => (m_prev m, m_num m) end) = (m_prev m, m_num m)) by (destruct cm; reflexivity).
  rewrite E2, N in H. apply bind_ok in H as (pv & PV & H). cbv zeta in H. apply bind_ok in H as (l1 & W1 & H). apply bind_ok in H as (l2 & W2 & [= <- <-]).
  assert (PE : pv = match m_prev m with Some pv => pv | None => firstn 72 h0 end).
  { destruct (m_prev m); [congruence|]. rewrite <- app_assoc in PV. rewrite nth_error_app2, Nat.sub_diag in PV by auto. cbn [nth_error app] in PV. injection PV as <-. reflexivity. }
  cbv zeta. assert (PG : rstrip (match m_prev m with Some pv => pv | None => firstn 72 h0 end ++ columns c) = rstrip (pv ++ slice 6 72 c)) by (rewrite PE; destruct (m_prev m); reflexivity).
  rewrite PG. cbn [m_prev m_num]. split; auto.
  set (z := rstrip (pv ++ slice 6 72 c)) in *. unfold write_at in W1. destruct (length pre <? length ((pre ++ h0 :: mid) ++ [c])); [|discriminate]. injection W1 as <-.
  rewrite <- app_assoc in W2. cbn [app] in W2. rewrite list_set_mid in W2. unfold write_at in W2.
  destruct (length (pre ++ h0 :: mid) <? length (pre ++ z :: mid ++ [c])); [|discriminate]. injection W2 as <-.
  pose proof (list_set_mid (pre ++ z :: mid) [] c ([] : str)) as W. rewrite <- app_assoc in W. cbn [app] in W. rewrite app_length in *. cbn [length] in *. rewrite W, <- app_assoc. reflexivity.
Qed.
Lemma frun_block b : forall pre h0 mid m rest out,
  (forall mk c, In (mk, c) b -> if mk : bool then ~ fskipped c /\ is_cont c else fskipped c) ->
  m_num m = Some (length pre) -> (m_prev m = None \/ m_prev m = Some h0) ->
  frun (pre ++ h0 :: mid) m (map snd b ++ rest) = Ok out ->
  exists m', m_num m' = Some (length pre) /\
    frun (pre ++ (match map snd (List.filter fst b) with [] => h0 | cs => fold_left (fun t c => rstrip (t ++ columns c)) cs (match m_prev m with Some pv => pv | None => firstn 72 h0 end) end)
          :: mid ++ map (fun p => if fst p : bool then [] else snd p) b) m' rest = Ok out.
Proof.
  induction b as [|[mk c] b IH]; intros pre h0 mid m rest out W N PV H.
  - cbn [map List.filter app] in *. exists m. rewrite app_nil_r. auto.
  - pose proof (W mk c (or_introl eq_refl)) as WC. assert (W' : forall mk c, In (mk, c) b -> if mk : bool then ~ fskipped c /\ is_cont c else fskipped c) by (intros mk' c' I; apply (W mk' c'); now right).
    cbn [map snd app frun] in H. destruct mk.
    + destruct WC as [NS IC]. apply fskip_iff_f in NS. rewrite NS in H. apply bind_ok in H as ((ls & m') & ST & H). cbn [fst snd] in H.
      apply fstep_cont in ST; auto. cbv zeta in ST. destruct ST as (-> & PV' & N').
      set (t := rstrip (match m_prev m with Some pv => pv | None => firstn 72 h0 end ++ columns c)) in *.
      destruct (IH pre t (mid ++ [[]]) m' rest out W' N' (or_intror PV') H) as (m2 & N2 & R). exists m2. split; auto.
      cbn [List.filter fst map snd]. rewrite PV' in R. rewrite <- app_assoc in R. cbn [app] in R. cbn [fold_left]. fold t.
      destruct (map snd (List.filter fst b)); exact R.
    + apply fskip_iff in WC. rewrite WC in H. replace ((pre ++ h0 :: mid) ++ [c]) with (pre ++ h0 :: (mid ++ [c])) in H by (rewrite <- app_assoc; reflexivity).
      destruct (IH pre h0 (mid ++ [c]) m rest out W' N PV H) as (m2 & N2 & R). exists m2. split; auto. cbn [List.filter fst map snd]. rewrite <- app_assoc in R. exact R.
Qed.
Lemma frun_skips sk : forall done m rest, (forall l, In l sk -> fskipped l) -> frun done m (sk ++ rest) = frun (done ++ sk) m rest.
Proof.
  induction sk as [|l sk IH]; intros done m rest H; [now rewrite app_nil_r|]. cbn [app frun]. assert (E : rf_skip true l = true) by (apply fskip_iff, H; now left).
  rewrite E, IH by (intros z Z; apply H; now right). now rewrite <- app_assoc.
Qed.
Lemma frun_blocks bs : forall done m out, (forall b, In b bs -> wf_statement b) -> frun done m (flat_map source bs) = Ok out -> out = done ++ flat_map result bs.
Proof.
  induction bs as [|[l b] bs IH]; intros done m out W H.
  - cbn in *. rewrite app_nil_r. congruence.
  - destruct (W (l, b) (or_introl eq_refl)) as (NS & NC & NO & WB). cbn [fst snd] in *. cbn [flat_map source fst snd app frun] in H. rewrite (proj2 (fskip_iff_f l) NS) in H.
    apply bind_ok in H as ((ls & m') & ST & H). cbn [fst snd] in H. apply fstep_first in ST as (-> & PV & N & _); auto.
    destruct (frun_block b done l [] m' (flat_map source bs) out WB N (or_introl PV) H) as (m2 & N2 & R). rewrite PV in R. cbn [app] in R.
    apply IH in R; [|intros z Z; apply W; now right]. rewrite R. cbn [flat_map]. unfold result at 2. unfold conts, fixed_text. cbn [fst snd]. rewrite <- app_assoc. reflexivity.
Qed.
