(* MergeProofs.v: merging continuation lines. *)
From Verif Require Import Base PyStr LineModel LineSpec LineProofs PreprocModel ScanModel ScanSpec ScanProofs.
Open Scope nat_scope.
Open Scope list_scope.

Lemma skip_iff l : rf_skip false l = true <-> skipped l.
Proof.
  unfold rf_skip, skipped. destruct (lstrip l) as [|c t] eqn:E.
  - split; auto. left. now apply lstrip_nil.
  - cbn [andb orb]. rewrite Ascii.eqb_eq. split.
    + intros ->. right. apply lstrip_cons in E as (b & -> & B & _). eauto.
    + intros [B|(b & r & -> & B)]; [apply lstrip_nil in B; congruence|]. rewrite lstrip_app in E by auto. change (lstrip ("!"%char :: r)) with ("!"%char :: r) in E. congruence.
Qed.
Lemma skip_iff_f l : rf_skip false l = false <-> ~ skipped l.
Proof. rewrite <- skip_iff. destruct (rf_skip false l); split; congruence. Qed.

(* one line, on the lines read so far *)
Definition absstep (done : list str) (m : mst) (l : str) : res (list str * mst) :=
  r <- scan_free_line l (is_some (m_cc m)) (m_s m) (m_d m) ;;
  let '(ci, co, s, d, cm) := r in
  if is_some (m_cc m) then
    match m_prev m, m_num m with
    | Some pv, Some k =>
        let pv' := pv ++ slice (after_in ci) (match co with Some (S k) => S k | _ => length l end) l in
        match co with
        | None => Ok (list_set done k pv' ++ [[]], mkM None s d None None)
        | Some c => Ok (list_set done k pv' ++ [[]], mkM co s d (Some pv') (Some k))
        end
    | _, _ => Raise "no previous line"
    end
  else let '(prev', num') := start_prev co s d (m_prev m) (m_num m) l (length done) in Ok (done ++ [l], mkM co s d prev' num').
Inductive mgood (done : list str) : mst -> ctx -> Prop :=
| GIdle : mgood done mst0 Code
| GCont c s d x pv k : flags s d x -> k < length done -> mgood done (mkM (Some c) s d (Some pv) (Some k)) x.
Lemma list_set_app {A} (a b : list A) k x : k < length a -> list_set (a ++ b) k x = list_set a k x ++ b.
Proof. revert k. induction a as [|h a IH]; intros k H; cbn in H; [lia|]. destruct k; cbn; auto. f_equal. apply IH. lia. Qed.
Lemma list_set_mid {A} (a b : list A) y x : list_set (a ++ y :: b) (length a) x = a ++ x :: b.
Proof. induction a; cbn; auto. now f_equal. Qed.
Definition lift (t : list str) (r : res (list str * mst)) : res (list str * mst) :=
  match r with Ok (ls, m') => Ok (ls ++ t, m') | Raise e => Raise e end.
Lemma merge_abs done m x l t : mgood done m x -> merge_free (done ++ l :: t) (length done) l m = lift t (absstep done m l).
Proof.
  intros G. unfold merge_free, absstep. destruct (scan_free_line l (is_some (m_cc m)) (m_s m) (m_d m)) as [((((ci & co) & s) & d) & cm)|e0]; cbn [bind lift]; auto.
  destruct G as [|c s0 d0 x pv k F K]; cbn [m_cc m_prev m_num mst0 is_some].
  - cbn [bind]. destruct (start_prev co s d None None l (length done)) as [p1 n1]. cbn [lift]. rewrite <- app_assoc. reflexivity.
  - fold (after_in ci). set (b := match co with Some (S k1) => S k1 | _ => length l end). cbv zeta.
    set (pv' := pv ++ slice (after_in ci) b l). unfold write_at at 1. rewrite app_length. cbn [length].
    replace (k <? length done + S (length t)) with true by (symmetry; apply Nat.ltb_lt; lia). cbn [bind]. rewrite list_set_app by auto.
    unfold write_at. rewrite app_length, list_set_length. cbn [length]. replace (length done <? length done + S (length t)) with true by (symmetry; apply Nat.ltb_lt; lia). cbn [bind].
    pose proof (list_set_mid (list_set done k pv') t l ([] : str)) as W. rewrite list_set_length in W. rewrite W.
    destruct co as [c1|]; cbn [bind start_prev lift]; rewrite <- app_assoc; reflexivity.
Qed.
(* the whole file, without a preprocessor *)
Fixpoint mrun (done : list str) (m : mst) (rest : list str) : res (list str) :=
  match rest with
  | [] => Ok done
  | l :: t => if rf_skip false l then mrun (done ++ [l]) m t
              else w <- absstep done m l ;; mrun (fst w) (snd w) t
  end.
Lemma slice_len a l : slice a (length l) l = skipn a l. Proof. unfold slice. now rewrite firstn_all. Qed.
Lemma rstrip_tail l : exists w, blank w /\ l = rstrip l ++ w.
Proof.
  unfold rstrip. destruct (dropwhile_app is_space (rev l)) as (q & E & Q). exists (rev q). split.
  - intros c C. apply in_rev in C. apply forallb_blank in Q. now apply Q.
  - rewrite <- rev_app_distr, <- E. symmetry. apply rev_involutive.
Qed.
Lemma nonzero x l ci cm x' : ~ line_scan true x l ci (Some 0) cm x'.
Proof.
  intros (NB & CK & _ & _ & (co1 & cm1 & S1 & E & _) & _). destruct ci as [k|]; cbn [after_in] in *.
  - destruct co1; cbn in E; discriminate.
  - destruct co1 as [p|]; [|discriminate]. cbn in E. injection E as <-. cbn [skipn] in S1. destruct S1 as [_ H _ _]. destruct (proj1 (H 0) eq_refl) as [K _].
    assert (O : opens l 0).
    { destruct (rstrip_tail l) as (w & _ & W). destruct (rstrip l) as [|c r] eqn:RS; [discriminate|]. cbn in K. assert (c = "&"%char) by congruence. subst c.
      exists [], (r ++ w). split; [exact W|]. split; auto. intros ? []. }
    apply CK in O. discriminate.
Qed.
(* reaching the end of the file *)
Definition code_in (b : list str) : Prop := exists y, In y b /\ ~ skipped y.
Definition after_cont (x : ctx) (pv : str) (h0 : str) (pre mid rest out : list str) : Prop :=
  (exists b s bo t o, rest = b ++ t /\ follow x b s bo /\ merged t o /\ out = pre ++ (pv ++ s) :: mid ++ bo ++ o) \/
  (exists s bo h, unfinished x rest s bo /\ out = pre ++ h :: mid ++ bo /\ (code_in rest -> h = pv ++ s) /\ (~ code_in rest -> h = h0 /\ s = [])).

Lemma code_cons_skip l t : skipped l -> code_in (l :: t) <-> code_in t.
Proof. intros K. unfold code_in. split; [intros (y & [<-|I] & N); [contradiction|eauto]|intros (y & I & N); exists y; split; auto; now right]. Qed.
Lemma code_cons l t : ~ skipped l -> code_in (l :: t). Proof. intros N. exists l. split; auto. now left. Qed.
Lemma code_dec t : code_in t \/ ~ code_in t.
Proof.
  induction t as [|l t IH]; [right; intros (y & [] & _)|]. destruct (rf_skip false l) eqn:E.
  - apply skip_iff in E. rewrite code_cons_skip by auto. exact IH.
  - apply skip_iff_f in E. left. now apply code_cons.
Qed.
Lemma merged_app_snoc (done : list str) l o : (done ++ [l]) ++ o = done ++ l :: o. Proof. now rewrite <- app_assoc. Qed.
Lemma flags_ctx x : (exists s d, flags s d x) <-> x = Code \/ x = Quote "'" \/ x = Quote """".
Proof.
  unfold flags. split.
  - intros (s & d & H). intuition.
  - intros [-> |[-> | ->]]; [exists false, false|exists true, false|exists false, true]; auto 6.
Qed.
Lemma flags_next s d x inc l ci co cm x' : flags s d x -> line_scan inc x l ci co cm x' -> exists s' d', flags s' d' x'.
Proof.
  intros F (_ & _ & _ & _ & (co1 & cm1 & [_ _ _ E] & _) & _). apply flags_ctx.
  assert (X : x = Code \/ x = Quote "'" \/ x = Quote """") by (apply flags_ctx; eauto). clear F.
  revert E. generalize (skipn (after_in ci) (rstrip l)). intros t ->. unfold ctx_before. rewrite firstn_all.
  assert (Y : let z := fold_left ctx_step t x in z = Comment \/ z = Code \/ z = Quote "'" \/ z = Quote """").
  { revert x X. induction t as [|c t IH]; intros x X; cbn [fold_left]; [tauto|]. destruct X as [-> |[-> | ->]]; cbn [ctx_step].
    - destruct (Ascii.eqb_spec c "'") as [-> |N1]; [apply IH; auto|]. destruct (Ascii.eqb_spec c """") as [-> |N2]; [apply IH; auto|]. cbn [orb].
      destruct (Ascii.eqb c "!"); [rewrite comment_stays; auto|apply IH; auto].
    - destruct (Ascii.eqb c "'"); apply IH; auto.
    - destruct (Ascii.eqb c """"); apply IH; auto. }
  cbv zeta in Y. destruct Y as [-> |[-> |[-> | ->]]]; auto.
Qed.
Lemma mrun_spec rest :
  (forall done out, mrun done mst0 rest = Ok out <-> exists o, merged rest o /\ out = done ++ o) /\
  (forall pre h0 mid c s d x pv out, flags s d x ->
     mrun (pre ++ h0 :: mid) (mkM (Some c) s d (Some pv) (Some (length pre))) rest = Ok out <-> after_cont x pv h0 pre mid rest out).
Proof.
  induction rest as [|l t [IHi IHc]].
  - split.
    + intros done out. cbn. split; [intros [= <-]; exists []; split; [constructor|now rewrite app_nil_r]|]. intros (o & M & ->). inversion M. now rewrite app_nil_r.
    + intros pre h0 mid c s d x pv out F. cbn [mrun]. split.
      * intros [= <-]. right. exists [], [], h0. split; [constructor|]. rewrite app_nil_r. split; auto. split; auto. intros (y & [] & _).
      * intros [(b & s1 & bo & t & o & E & FO & M & ->)|(s1 & bo & h & U & -> & _ & N)].
        -- symmetry in E. apply app_eq_nil in E as [-> ->]. inversion FO.
        -- inversion U. subst. destruct N as [-> _]; [intros (y & [] & _)|]. now rewrite app_nil_r.
  - split.
    + intros done out. cbn [mrun]. destruct (rf_skip false l) eqn:SK.
      * apply skip_iff in SK. rewrite IHi. split.
        -- intros (o & M & ->). exists (l :: o). split; [now constructor|]. apply merged_app_snoc.
        -- intros (o & M & ->). inversion M; subst; try contradiction. exists o0. split; auto. symmetry. apply merged_app_snoc.
      * apply skip_iff_f in SK. unfold absstep. cbn [m_cc m_s m_d mst0 is_some m_prev m_num].
        split.
        -- intros H. apply bind_ok in H as ((ls & m') & H & K). apply bind_ok in H as (((((ci & co) & s') & d') & cm) & H & Q).
           apply scan_line in H as (x & x' & F & F' & LS). assert (X : x = Code) by (destruct F as [(_ & _ & A)|[(A & _)|(_ & A & _)]]; [auto|discriminate|discriminate]). subst x.
           assert (CI : ci = None). { destruct LS as (_ & _ & A & _). destruct ci; auto. assert (false = true) by (apply A; discriminate). discriminate. }
           subst ci. destruct co as [k|]; cbn [start_prev] in Q; injection Q as <- <-; cbn [fst snd] in K.
           ++ rewrite (IHc done l [] k s' d' x') in K by auto. assert (HT : head_text l k x' (if s' || d' then firstn k l else rstrip (firstn k l))).
              { destruct F' as [(-> & -> & ->)|[(-> & -> & ->)|(-> & -> & ->)]]; [left; auto|right|right]; (split; [eexists; reflexivity|reflexivity]). }
              destruct K as [(b & s1 & bo & t1 & o & -> & FO & M & ->)|(s1 & bo & h & U & -> & A & B)].
              ** eexists. split; [eapply MStmt; eauto|]. reflexivity.
              ** destruct (code_dec t) as [CD|NC].
                 --- rewrite (A CD). eexists. split; [eapply MOpen; eauto|reflexivity].
                 --- destruct (B NC) as [-> ->]. exists (l :: t). assert (AS : forall y, In y t -> skipped y).
                     { intros y I. destruct (rf_skip false y) eqn:Y; [now apply skip_iff|]. apply skip_iff_f in Y. exfalso. apply NC. exists y. auto. }
                     split; [eapply MAlone; eauto|]. cbn [app]. f_equal. f_equal. clear - U AS. revert x' bo U. induction t as [|y t IH]; intros x' bo U; inversion U; subst; auto.
                     +++ f_equal. eapply IH; eauto. intros z Z. apply AS. now right.
                     +++ exfalso. match goal with K : ~ skipped y |- _ => apply K end. apply AS. now left.
           ++ assert (X' : x' = Code /\ s' = false /\ d' = false).
              { destruct LS as (_ & _ & _ & _ & _ & A). destruct F' as [(-> & -> & ->)|[(-> & -> & ->)|(-> & -> & ->)]]; auto; exfalso; apply A; auto; eexists; reflexivity. }
              destruct X' as (-> & -> & ->). change (mkM None false false None None) with mst0 in K. rewrite IHi in K. destruct K as (o & M & ->). exists (l :: o). split; [|apply merged_app_snoc]. eapply MPlain; eauto.
        -- intros (o & M & ->). inversion M; subst; try contradiction.
           ++ assert (SL : scan_free_line l false false false = Ok (None, None, false, false, cm)) by (apply scan_line; exists Code, Code; unfold flags; auto 8).
              rewrite SL. cbn [bind start_prev fst snd]. apply IHi. exists o0. split; auto. symmetry. apply merged_app_snoc.
           ++ destruct (flags_next false false Code false l None (Some k) cm x) as (s' & d' & F'); [left; auto|auto|].
              assert (SL : scan_free_line l false false false = Ok (None, Some k, s', d', cm)) by (apply scan_line; exists Code, x; split; [left; auto|auto]).
              rewrite SL. cbn [bind start_prev fst snd]. apply (IHc done l [] k s' d' x); auto. left.
              assert (h = if s' || d' then firstn k l else rstrip (firstn k l)).
              { destruct F' as [(-> & -> & ->)|[(-> & -> & ->)|(-> & -> & ->)]]; match goal with HT : head_text _ _ _ _ |- _ => destruct HT as [[A ->]|[(q & A) ->]] end; try discriminate; auto. }
              subst h. exists b, s, bo, t0, o0. auto.
           ++ destruct (flags_next false false Code false l None (Some k) cm x) as (s' & d' & F'); [left; auto|auto|].
              assert (SL : scan_free_line l false false false = Ok (None, Some k, s', d', cm)) by (apply scan_line; exists Code, x; split; [left; auto|auto]).
              rewrite SL. cbn [bind start_prev fst snd]. apply (IHc done l [] k s' d' x); auto. right.
              assert (h = if s' || d' then firstn k l else rstrip (firstn k l)).
              { destruct F' as [(-> & -> & ->)|[(-> & -> & ->)|(-> & -> & ->)]]; match goal with HT : head_text _ _ _ _ |- _ => destruct HT as [[A ->]|[(q & A) ->]] end; try discriminate; auto. }
              subst h. exists s, bo, ((if s' || d' then firstn k l else rstrip (firstn k l)) ++ s). split; auto. split; auto. split; auto. intros NC. exfalso. apply NC. assumption.
           ++ destruct (flags_next false false Code false l None (Some k) cm x) as (s' & d' & F'); [left; auto|auto|].
              assert (SL : scan_free_line l false false false = Ok (None, Some k, s', d', cm)) by (apply scan_line; exists Code, x; split; [left; auto|auto]).
              rewrite SL. cbn [bind start_prev fst snd]. apply (IHc done l [] k s' d' x); auto. right. exists [], t, l. split.
              { match goal with AS : forall y, In y t -> skipped y |- _ => clear - AS; rename AS into AS0 end. induction t as [|y t IH]; constructor; [apply AS0; now left|]. apply IH. intros z Z. apply AS0. now right. }
              split; auto. split; auto. intros (y & I & N). exfalso. auto.
    + intros pre h0 mid c s d x pv out F. cbn [mrun]. destruct (rf_skip false l) eqn:SK.
      * apply skip_iff in SK. replace ((pre ++ h0 :: mid) ++ [l]) with (pre ++ h0 :: (mid ++ [l])) by (rewrite <- app_assoc; reflexivity).
        rewrite (IHc pre h0 (mid ++ [l]) c s d x pv out F). unfold after_cont. split.
        -- intros [(b & s1 & bo & t1 & o & -> & FO & M & ->)|(s1 & bo & h & U & -> & A & B)].
           ++ left. exists (l :: b), s1, (l :: bo), t1, o. split; auto. split; [now constructor|]. split; auto. now rewrite <- app_assoc.
           ++ right. exists s1, (l :: bo), h. split; [now constructor|]. split; [now rewrite <- app_assoc|]. rewrite code_cons_skip by auto. auto.
        -- intros [(b & s1 & bo & t1 & o & E & FO & M & ->)|(s1 & bo & h & U & -> & A & B)].
           ++ left. inversion FO; subst; cbn [app] in E; injection E as <- E; try contradiction. subst t. exists b0, s1, o0, t1, o. split; auto. split; auto. split; auto. now rewrite <- app_assoc.
           ++ right. inversion U; subst; try contradiction. exists s1, o, h. split; auto. split; [now rewrite <- app_assoc|]. rewrite code_cons_skip in A, B by auto. auto.
      * apply skip_iff_f in SK. unfold absstep. cbn [m_cc m_s m_d is_some m_prev m_num].
        assert (LSET : forall z, list_set (pre ++ h0 :: mid) (length pre) z ++ [[]] = pre ++ z :: (mid ++ [[]])) by (intros z; rewrite list_set_mid, <- app_assoc; reflexivity).
        split.
        -- intros H. apply bind_ok in H as ((ls & m') & H & K). apply bind_ok in H as (((((ci & co) & s') & d') & cm) & H & Q).
           apply scan_line in H as (x2 & x' & F2 & F' & LS). assert (x2 = x) by (destruct (flags_q _ _ _ F) as [-> _]; now destruct (flags_q _ _ _ F2)). subst x2.
           cbv zeta in Q. destruct co as [k|]; injection Q as <- <-; cbn [fst snd] in K; rewrite LSET in K.
           ++ destruct k as [|k]; [now apply nonzero in LS|]. unfold slice in K.
              apply (IHc pre (pv ++ skipn (after_in ci) (firstn (S k) l)) (mid ++ [[]]) (S k) s' d' x' _ out F') in K.
              destruct K as [(b & s1 & bo & t1 & o & -> & FO & M & ->)|(s1 & bo & h & U & -> & A & B)].
              ** left. exists (l :: b), (skipn (after_in ci) (firstn (S k) l) ++ s1), ([] :: bo), t1, o. split; auto. split; [eapply FMore; eauto|]. split; auto. rewrite <- !app_assoc. reflexivity.
              ** right. exists (skipn (after_in ci) (firstn (S k) l) ++ s1), ([] :: bo), h. split; [eapply UMore; eauto|]. split; [now rewrite <- app_assoc|]. split.
                 --- intros _. destruct (code_dec t) as [CD|NC]; [rewrite (A CD); now rewrite app_assoc|]. destruct (B NC) as [-> ->]. now rewrite app_nil_r.
                 --- intros NC. exfalso. apply NC. now apply code_cons.
           ++ assert (X' : x' = Code /\ s' = false /\ d' = false).
              { destruct LS as (_ & _ & _ & _ & _ & A). destruct F' as [(-> & -> & ->)|[(-> & -> & ->)|(-> & -> & ->)]]; auto; exfalso; apply A; auto; eexists; reflexivity. }
              destruct X' as (-> & -> & ->). change (mkM None false false None None) with mst0 in K. apply IHi in K as (o & M & ->). left.
              exists [l], (skipn (after_in ci) l), [[]], t, o. split; auto. split; [eapply FLast; eauto|]. split; auto. rewrite slice_len. rewrite <- !app_assoc. cbn [app]. now rewrite <- app_assoc.
        -- intros K.
           assert (CASES : (exists ci k cm x', line_scan true x l ci (Some k) cm x' /\ after_cont x' (pv ++ skipn (after_in ci) (firstn k l)) (pv ++ skipn (after_in ci) (firstn k l)) pre (mid ++ [[]]) t out) \/
                           (exists ci cm o, line_scan true x l ci None cm Code /\ merged t o /\ out = pre ++ (pv ++ skipn (after_in ci) l) :: mid ++ [] :: o)).
           { destruct K as [(b & s1 & bo & t1 & o & E & FO & M & ->)|(s1 & bo & h & U & -> & A & B)].
             - inversion FO; subst; cbn [app] in E; injection E as <- E; try contradiction; subst t.
               + left. exists ci, k, cm, x'. split; auto. left. exists b0, t0, o0, t1, o. split; auto. split; auto. split; auto. rewrite <- !app_assoc. reflexivity.
               + right. exists ci, cm, o. split; auto.
             - left. inversion U; subst; try contradiction. exists ci, k, cm, x'. split; auto. right. exists t0, o, h. split; auto. split; [now rewrite <- app_assoc|].
               rewrite (A (code_cons l t SK)). split; [intros _; now rewrite app_assoc|]. intros NC. assert (t0 = []).
               { match goal with U7 : unfinished x' t t0 o |- _ => clear - U7 NC; revert x' o U7 end. induction t as [|y t IH]; intros x' o U; inversion U; subst; auto.
                 - eapply IH; eauto. intros C. apply NC. now apply code_cons_skip.
                 - exfalso. apply NC. now apply code_cons. }
               subst t0. rewrite app_nil_r. auto. }
           destruct CASES as [(ci & k & cm & x' & LS & AC)|(ci & cm & o & LS & M & ->)].
           ++ destruct (flags_next s d x true l ci (Some k) cm x' F LS) as (s' & d' & F').
              assert (SL : scan_free_line l true s d = Ok (ci, Some k, s', d', cm)) by (apply scan_line; exists x, x'; auto).
              rewrite SL. cbn [bind fst snd]. cbv zeta. cbn [bind fst snd]. rewrite LSET. destruct k as [|k]; [now apply nonzero in LS|]. unfold slice. apply (IHc pre _ (mid ++ [[]]) (S k) s' d' x'); auto.
           ++ assert (SL : scan_free_line l true s d = Ok (ci, None, false, false, cm)) by (apply scan_line; exists x, Code; split; [auto|split; [left; auto|auto]]).
              rewrite SL. cbn [bind fst snd]. cbv zeta. cbn [bind fst snd]. rewrite LSET, slice_len. apply IHi. exists o. split; auto. rewrite <- !app_assoc. cbn [app]. now rewrite <- app_assoc.
Qed.

(* ---- with the reader and the preprocessor ---- *)
From Verif Require Import LineProps.
Definition plain_line (l : str) : Prop := rstrip l = l /\ ends_bs l = false.
Lemma groups_plain l t : plain_line l -> groups (l :: t) = [l] :: groups t /\ group_text [l] = l.
Proof.
  intros [E B]. cbn [groups]. rewrite E, B. split; auto. unfold group_text. cbn [map List.concat]. rewrite app_nil_r. unfold piece. rewrite E.
  unfold ends_bs in B. now rewrite B.
Qed.
Definition at_line (p : pobj) (done rest : list str) : Prop := po_lines p = done ++ rest /\ po_next p = length done.
Lemma read_next p done rest : at_line p done rest -> (forall l, In l rest -> plain_line l) ->
  exists p', next_line p = (p', (hd_error rest, length done)) /\ po_lines p' = done ++ rest /\ (rest <> [] -> po_next p' = S (length done)).
Proof.
  intros [E N] P. rewrite (next_at p done rest) by auto. destruct rest as [|l t].
  - cbn. eexists. split; [now rewrite N|]. split; auto. congruence.
  - destruct (groups_plain l t) as [-> ->]; [apply P; now left|]. eexists. cbn [hd_error length]. split; [now rewrite N|]. split; auto. intros _. cbn. lia.
Qed.
Lemma absstep_good done m x l ls m' : mgood done m x -> absstep done m l = Ok (ls, m') -> (exists x', mgood ls m' x') /\ length ls = S (length done).
Proof.
  intros G H. unfold absstep in H. apply bind_ok in H as (((((ci & co) & s) & d) & cm) & H & Q). apply scan_line in H as (y & x' & _ & F' & LS).
  assert (C : co = None -> s = false /\ d = false).
  { intros ->. destruct LS as (_ & _ & _ & _ & _ & A). destruct F' as [(-> & -> & ->)|[(-> & -> & ->)|(-> & -> & ->)]]; auto; exfalso; apply A; auto; eexists; reflexivity. }
  destruct G as [|c s0 d0 x pv k F K]; cbn [m_cc m_prev m_num mst0 is_some] in Q; cbv zeta in Q.
  - destruct co as [k|]; cbn [start_prev] in Q; injection Q as <- <-; rewrite app_length; cbn [length]; (split; [|lia]).
    + exists x'. constructor; auto. rewrite app_length. cbn. lia.
    + destruct (C eq_refl) as [-> ->]. exists Code. constructor.
  - destruct co as [c1|]; injection Q as <- <-; rewrite app_length, list_set_length; cbn [length]; (split; [|lia]).
    + exists x'. constructor; auto. rewrite app_length, list_set_length. lia.
    + destruct (C eq_refl) as [-> ->]. exists Code. constructor.
Qed.
Lemma mgood_snoc done m x l : mgood done m x -> mgood (done ++ [l]) m x.
Proof. intros [|c s d y pv k F K]; constructor; auto. rewrite app_length. lia. Qed.

Section WithParser.
Variable parse : str -> option (list expr).
Fixpoint prun (done : list str) (m : mst) (st : stack) (d : defs) (rest : list str) : res (list str) :=
  match rest with
  | [] => Ok done
  | l :: t =>
      if rf_skip false l then prun (done ++ [l]) m st d t
      else
        r <- process_line parse st d l ;;
        let '(isp, st', d') := r in
        if isp || negb (in_true_region st') then prun (done ++ [[]]) m st' d' t
        else w <- absstep done m l ;; prun (fst w) (snd w) st' d' t
  end.
Lemma rf_prun rest : forall fuel p done m x st d, length rest < fuel -> (forall l, In l rest -> plain_line l) -> mgood done m x ->
  po_lines p = done ++ rest -> (rest <> [] -> po_next p = S (length done)) ->
  match rf_loop parse fuel false p st d m (hd_error rest) (length done), prun done m st d rest with
  | Ok p', Ok out => po_lines p' = out
  | Raise _, Raise _ => True
  | _, _ => False
  end.
Proof.
  induction rest as [|l t IH]; intros fuel p done m x st d F P G EL EN; (destruct fuel as [|fuel]; [cbn in F; lia|]); cbn [rf_loop prun hd_error].
  - now rewrite app_nil_r in EL.
  - specialize (EN ltac:(discriminate)). cbn [length] in F.
    assert (NX : forall q l', po_lines q = (done ++ [l']) ++ t -> po_next q = S (length done) ->
       exists p', next_line q = (p', (hd_error t, S (length done))) /\ po_lines p' = (done ++ [l']) ++ t /\ (t <> [] -> po_next p' = S (S (length done)))).
    { intros q l' E1 E2. destruct (read_next q (done ++ [l']) t) as (p' & A & B & C); [split; auto; rewrite app_length; cbn; lia|intros z Z; apply P; now right|].
      rewrite app_length in A, C. cbn in A, C. rewrite Nat.add_1_r in A, C. eauto. }
    assert (LD : forall l' : str, length (done ++ [l']) = S (length done)) by (intros; rewrite app_length; cbn; lia).
    destruct (rf_skip false l) eqn:SK.
    + destruct (NX p l) as (p' & A & B & C); [rewrite EL, <- app_assoc; reflexivity|auto|]. rewrite A. cbv beta iota.
      rewrite <- (LD l). apply (IH fuel p' (done ++ [l]) m x); auto; [lia|intros z Z; apply P; now right|now apply mgood_snoc|]. now rewrite LD.
    + destruct (process_line parse st d l) as [((isp & st') & d')|e]; cbn [bind]; auto.
      destruct (isp || negb (in_true_region st')) eqn:CB.
      * unfold write_line. rewrite EL, app_length. cbn [length]. replace (length done <? length done + S (length t)) with true by (symmetry; apply Nat.ltb_lt; lia). cbn [bind].
        destruct (NX (mkPO (list_set (done ++ l :: t) (length done) []) (po_num p) (po_next p) (po_errs p) (po_msgs p) (po_max p)) []) as (p' & A & B & C);
          [cbn [po_lines]; rewrite list_set_mid, <- app_assoc; reflexivity|auto|]. rewrite A. cbv beta iota.
        rewrite <- (LD []). apply (IH fuel p' (done ++ [[]]) m x); auto; [lia|intros z Z; apply P; now right|now apply mgood_snoc|]. now rewrite LD.
      * rewrite EL, (merge_abs done m x l t G). destruct (absstep done m l) as [(ls & m')|e] eqn:AB; cbn [lift bind]; auto.
        destruct (absstep_good done m x l ls m' G AB) as [(x' & G') LL]. cbn [fst snd].
        destruct (read_next (set_lines p (ls ++ t)) ls t) as (p' & A & B & C); [split; [reflexivity|cbn; now rewrite LL]|intros z Z; apply P; now right|].
        rewrite A. apply (IH fuel p' ls m' x'); auto; [lia|]. intros z Z. apply P. now right.
Qed.
Lemma skip_same l : PreprocModel.skip_line l = rf_skip false l.
Proof. unfold PreprocModel.skip_line, rf_skip. destruct (lstrip l); reflexivity. Qed.
Lemma prun_mrun rest : forall done m st d out,
  prun done m st d rest = Ok out <-> exists os st' d', read_lines parse st d rest = Ok (os, st', d') /\ mrun done m os = Ok out.
Proof.
  induction rest as [|l t IH]; intros done m st d out; cbn [prun read_lines].
  - split; [intros H; exists [], st, d; auto|]. intros (os & st' & d' & [= <- <- <-] & H). exact H.
  - unfold read_step. replace (PreprocModel.skip_line l) with (rf_skip false l) by (symmetry; apply skip_same). destruct (rf_skip false l) eqn:SK.
    + cbn [bind]. rewrite IH. split.
      * intros (os & st' & d' & E & H). exists (l :: os), st', d'. rewrite E. split; auto. cbn [mrun]. now rewrite SK.
      * intros (os & st' & d' & E & H). apply bind_ok in E as (((os2 & st2) & d2) & E & [= <- <- <-]). exists os2, st2, d2. split; auto. cbn [mrun] in H. now rewrite SK in H.
    + destruct (process_line parse st d l) as [((isp & st1) & d1)|e]; cbn [bind].
      2:{ split; [discriminate|]. intros (os & st' & d' & E & _). discriminate. }
      assert (EQ : (if isp then Ok ([], st1, d1) else if in_true_region st1 then Ok (l, st1, d1) else Ok ([], st1, d1)) =
                   Ok ((if isp || negb (in_true_region st1) then [] else l), st1, d1)) by (destruct isp, (in_true_region st1); reflexivity).
      rewrite EQ. cbn [bind]. destruct (isp || negb (in_true_region st1)).
      * rewrite IH. split.
        -- intros (os & st' & d' & E & H). exists ([] :: os), st', d'. rewrite E. split; auto.
        -- intros (os & st' & d' & E & H). apply bind_ok in E as (((os2 & st2) & d2) & E & [= <- <- <-]). exists os2, st2, d2. split; auto.
      * split.
        -- intros H. apply bind_ok in H as ((ls & m') & AB & H). cbn [fst snd] in H. apply IH in H as (os & st' & d' & E & H). exists (l :: os), st', d'. rewrite E. split; auto. cbn [mrun]. rewrite SK, AB. exact H.
        -- intros (os & st' & d' & E & H). apply bind_ok in E as (((os2 & st2) & d2) & E & [= <- <- <-]). cbn [mrun] in H. rewrite SK in H. apply bind_ok in H as ((ls & m') & AB & H).
           rewrite AB. cbn [bind fst snd]. apply IH. eauto.
Qed.
Lemma rf_file_spec d lines out : (forall l, In l lines -> plain_line (rstrip l)) ->
  (exists p, rf_file parse false d lines = Ok p /\ po_lines p = out) <-> exists m, read_file parse d (map rstrip lines) = Ok m /\ merged m out.
Proof.
  intros P. assert (P' : forall l, In l (map rstrip lines) -> plain_line l) by (intros l I; apply in_map_iff in I as (z & <- & Z); auto).
  unfold rf_file. change (curr_line (po_new (map rstrip lines) 0)) with (next_line (po_new (map rstrip lines) 0)).
  destruct (read_next (po_new (map rstrip lines) 0) [] (map rstrip lines)) as (p & A & B & C); [split; auto|auto|]. rewrite A. cbn [length] in *.
  assert (FU : length (map rstrip lines) < S (length lines)) by (rewrite map_length; lia).
  pose proof (rf_prun (map rstrip lines) (S (length lines)) p [] mst0 Code [] d FU P' (GIdle []) B C) as R. cbn [length] in R.
  pose proof (prun_mrun (map rstrip lines) [] mst0 [] d) as Q.
  destruct (rf_loop parse (S (length lines)) false p [] d mst0 (hd_error (map rstrip lines)) 0) as [p'|e] eqn:E1; destruct (prun [] mst0 [] d (map rstrip lines)) as [o|e2]; try contradiction.
  - subst o. split.
    + intros (p2 & [= <-] & <-). destruct (proj1 (Q _) eq_refl) as (os & st' & d' & E & H). exists os. unfold read_file. rewrite E. split; auto. apply (proj1 (mrun_spec os)) in H as (o & M & ->). exact M.
    + intros (m & E & M). exists p'. split; auto. unfold read_file in E. apply bind_ok in E as (((os & st') & d') & E & [= <-]).
      assert (K : Ok (po_lines p') = Ok out); [|congruence]. apply Q. exists os, st', d'. split; auto. apply (proj1 (mrun_spec os)). eauto.
  - split; [intros (p2 & K & _); discriminate|]. intros (m & E & M). exfalso. unfold read_file in E. apply bind_ok in E as (((os & st') & d') & E & [= <-]).
    assert (K : Raise e2 = Ok out); [|discriminate]. apply Q. exists os, st', d'. split; auto. apply (proj1 (mrun_spec os)). eauto.
Qed.
End WithParser.
