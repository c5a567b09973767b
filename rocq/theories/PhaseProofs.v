From Verif Require Import Regex PhaseModel PhaseSpec.
Open Scope nat_scope.
Open Scope list_scope.

Lemma fortran_id_spec s : in_re fortran_id_re s <-> fortran_name s.
Proof.
  unfold fortran_id_re, fortran_name. rewrite in_cat. split.
  - intros (x & y & -> & A & B). apply in_cls in A as (c & -> & F). apply in_star_cls in B. rewrite forallb_forall in B. exists c, y. auto.
  - intros (c & t & -> & A & B). exists [c], t. split; auto. split; [now constructor|]. apply in_star_cls. now apply forallb_forall.
Qed.

(* a regex that means a finite set of words, up to case *)
Definition means (r : re) (ws : list str) : Prop := forall s, in_re r s <-> In (lower s) ws.
Lemma means_word w : means (wordi w) [lower w].
Proof. intros s. rewrite in_wordi. cbn. intuition congruence. Qed.
Lemma lower_app' a b : lower (a ++ b) = lower a ++ lower b. Proof. apply map_app. Qed.
Lemma means_cat a b wa wb : means a wa -> means b wb -> means (Cat a b) (List.concat (map (fun x => map (fun y => x ++ y) wb) wa)).
Proof.
  intros A B s. rewrite in_cat. rewrite in_concat. split.
  - intros (x & y & -> & X & Y). apply A in X. apply B in Y. exists (map (fun z => lower x ++ z) wb). split.
    + apply in_map_iff. eauto.
    + rewrite lower_app'. now apply in_map.
  - intros (l & HL & H). apply in_map_iff in HL as (x & <- & X). apply in_map_iff in H as (y & E & Y).
    assert (D : forall s, lower s = x ++ y -> exists u v, s = u ++ v /\ lower u = x /\ lower v = y).
    { clear. induction x as [|c x IH]; intros s E; cbn in E.
      - exists [], s. auto.
      - destruct s as [|d s]; [discriminate|]. cbn in E. injection E as E1 E2. destruct (IH s E2) as (u & v & -> & <- & <-).
        exists (d :: u), v. cbn. rewrite E1. auto. }
    destruct (D s) as (u & v & -> & <- & <-); auto. exists u, v. split; auto. split; [now apply A|now apply B].
Qed.
Lemma means_opt a wa : means a wa -> means (opt a) (wa ++ [[]]).
Proof.
  intros A s. rewrite in_opt, in_app_iff, (A s). cbn. split; intros [H|H]; auto.
  - subst. auto.
  - destruct H as [H|[]]. right. destruct s; [auto|discriminate].
Qed.
Lemma means_perm r ws ws' : means r ws -> (forall x, In x ws <-> In x ws') -> means r ws'.
Proof. intros M E s. rewrite (M s). apply E. Qed.

(* no newline in the words *)
Definition plain (ws : list str) : bool := forallb (fun w => negb (existsb (Ascii.eqb nl) w) && negb (str_eqb w [])) ws.
Lemma lower_c_nl c : lower_c c = nl -> c = nl.
Proof. destruct c as [[] [] [] [] [] [] [] []]; vm_compute; congruence. Qed.
Lemma plain_no_nl ws t : plain ws = true -> In (lower t) ws -> ~ In nl t.
Proof.
  intros P I N. unfold plain in P. rewrite forallb_forall in P. specialize (P _ I). apply andb_true_iff in P as [P _].
  apply negb_true_iff in P. assert (Q : existsb (Ascii.eqb nl) (lower t) = true); [|congruence].
  apply existsb_exists. exists nl. split; [|apply Ascii.eqb_refl]. unfold lower. apply in_map_iff. exists nl. split; auto.
Qed.
Lemma plain_nonempty ws t : plain ws = true -> In (lower t) ws -> t <> [].
Proof.
  intros P I ->. unfold plain in P. rewrite forallb_forall in P. specialize (P _ I). apply andb_true_iff in P as [_ P].
  cbn in P. discriminate.
Qed.

Definition tail_ok (e : str) : Prop := e = [] \/ e = [nl].
(* name = identifier _ word, perhaps with a final newline *)
Definition decomp (ws : list str) (s a t e : str) : Prop :=
  s = a ++ "_"%char :: t ++ e /\ fortran_name a /\ In (lower t) ws /\ tail_ok e.

Lemma fm_split_sound r ws s i a t : means r ws -> fm_split r s i = Some (a, t) -> exists e, decomp ws s a t e.
Proof.
  intros M. induction i as [|k IH]; [discriminate|]. cbn [fm_split]. cbv zeta.
  destruct (skipn (S k) s) as [|c w] eqn:SK; [auto|].
  destruct (Ascii.eqb c "_" && re_full fortran_id_re (firstn (S k) s)) eqn:B; [|auto].
  apply andb_true_iff in B as [B1 B2]. apply Ascii.eqb_eq in B1. subst c. apply re_full_spec, fortran_id_spec in B2.
  assert (S1 : s = firstn (S k) s ++ "_"%char :: w) by (rewrite <- SK; symmetry; apply firstn_skipn).
  destruct (re_full r w) eqn:R.
  - intros [= <- <-]. apply re_full_spec in R. exists []. unfold decomp, tail_ok. rewrite app_nil_r. split; auto. split; auto. split; auto. now apply M.
  - destruct (drop_nl w) as [w'|] eqn:D; [|auto]. apply drop_nl_spec in D. subst w.
    destruct (re_full r w') eqn:R2; [|auto]. intros [= <- <-]. apply re_full_spec in R2. exists [nl]. unfold decomp, tail_ok. split; auto. split; auto. split; auto. now apply M.
Qed.
Lemma fm_split_complete r ws s i a t e : means r ws -> plain ws = true -> decomp ws s a t e -> length a <= i -> fm_split r s i <> None.
Proof.
  intros M P (E & F & W & T). induction i as [|k IH]; intros H.
  - destruct F as (c & u & -> & _). cbn in H. lia.
  - cbn [fm_split]. cbv zeta. destruct (Nat.eq_dec (length a) (S k)) as [Q|Q].
    + rewrite <- Q. subst s. rewrite firstn_app, Nat.sub_diag, firstn_all. cbn [firstn]. rewrite app_nil_r.
      rewrite skipn_app, Nat.sub_diag, skipn_all. cbn [skipn app]. rewrite Ascii.eqb_refl. cbn [andb].
      replace (re_full fortran_id_re a) with true by (symmetry; now apply re_full_spec, fortran_id_spec).
      destruct (re_full r (t ++ e)) eqn:R; [discriminate|]. destruct T as [-> | ->].
      * rewrite app_nil_r in R. assert (re_full r t = true) by (apply re_full_spec; now apply M). congruence.
      * replace (drop_nl (t ++ [nl])) with (Some t) by (symmetry; now apply drop_nl_spec).
        replace (re_full r t) with true by (symmetry; apply re_full_spec; now apply M). discriminate.
    + assert (H' : length a <= k) by lia. specialize (IH H').
      destruct (skipn (S k) s) as [|c w]; auto. destruct (Ascii.eqb c "_" && _); auto. destruct (re_full r w); [discriminate|].
      destruct (drop_nl w) as [w'|]; auto. destruct (re_full r w'); [discriminate|auto].
Qed.

Lemma decomp_len ws s a t e : decomp ws s a t e -> length a <= length s.
Proof. intros (-> & _). rewrite app_length. lia. Qed.

(* two ways to cut the same text at an underscore *)
Lemma cut_cases : forall a a' t t' : str, a ++ "_"%char :: t = a' ++ "_"%char :: t' ->
  (a = a' /\ t = t') \/ (exists x, t = x ++ "_"%char :: t' /\ a' = a ++ "_"%char :: x) \/
  (exists x, t' = x ++ "_"%char :: t /\ a = a' ++ "_"%char :: x).
Proof.
  induction a as [|c a IH]; intros [|c' a'] t t' E; cbn in E.
  - injection E as ->. auto.
  - injection E as <- ->. right. left. exists a'. auto.
  - injection E as -> <-. right. right. exists a. auto.
  - injection E as <- E. destruct (IH _ _ _ E) as [[-> ->]|[(x & X1 & X2)|(x & X1 & X2)]]; auto.
    + right. left. exists x. rewrite X2. auto.
    + right. right. exists x. rewrite X2. auto.
Qed.
Lemma tail_unique ws ws' u u' t t' e e' : plain ws = true -> plain ws' = true -> In (lower t) ws -> In (lower t') ws' ->
  tail_ok e -> tail_ok e' -> u ++ "_"%char :: t ++ e = u' ++ "_"%char :: t' ++ e' -> e = e' /\ u ++ "_"%char :: t = u' ++ "_"%char :: t'.
Proof.
  intros P P' I I' T T' E.
  assert (R : forall u t e, u ++ "_"%char :: t ++ e = (u ++ "_"%char :: t) ++ e) by (intros; now rewrite <- app_assoc).
  rewrite !R in E.
  assert (X : forall ws t u v, plain ws = true -> In (lower t) ws -> u ++ "_"%char :: t <> v ++ [nl]).
  { clear. intros ws t u v P I E. pose proof (plain_nonempty _ _ P I) as N. pose proof (plain_no_nl _ _ P I) as M.
    destruct (exists_last N) as (t0 & c & ->). change ("_"%char :: t0 ++ [c]) with (("_"%char :: t0) ++ [c]) in E. rewrite app_assoc in E.
    apply app_inj_tail in E as [_ ->]. apply M. apply in_app_iff. right. now left. }
  destruct T as [-> | ->], T' as [-> | ->]; rewrite ?app_nil_r in E.
  - auto.
  - exfalso. eapply (X ws t); eauto.
  - exfalso. symmetry in E. eapply (X ws' t'); eauto.
  - apply app_inj_tail in E as [E _]. auto.
Qed.

(* [ends w v]: v ends in _w *)
Fixpoint ends_in (w v : str) : bool := str_eqb w v || match v with [] => false | _ :: v' => ends_in w v' end.
Lemma ends_in_app w x : ends_in w (x ++ w) = true.
Proof.
  induction x as [|c x IH]; cbn [app].
  - destruct w; cbn [ends_in]; rewrite str_eqb_refl; reflexivity.
  - cbn [ends_in]. rewrite IH. apply orb_true_r.
Qed.
(* no word of ws ends in _ and a word of ws' *)
Definition apart (ws ws' : list str) : bool := forallb (fun w => forallb (fun w' => negb (ends_in ("_"%char :: w') w)) ws') ws.
Lemma apart_spec ws ws' t t' x : apart ws ws' = true -> In (lower t) ws -> In (lower t') ws' -> t = x ++ "_"%char :: t' -> False.
Proof.
  intros A I I' ->. unfold apart in A. rewrite forallb_forall in A. specialize (A _ I). rewrite forallb_forall in A. specialize (A _ I').
  rewrite lower_app' in A. cbn [lower map] in A. change (lower_c "_"%char) with "_"%char in A. fold (lower t') in A.
  rewrite ends_in_app in A. discriminate.
Qed.
Lemma decomp_unique ws ws' s a t e a' t' e' : plain ws = true -> plain ws' = true -> apart ws ws' = true -> apart ws' ws = true ->
  decomp ws s a t e -> decomp ws' s a' t' e' -> a = a' /\ t = t' /\ e = e'.
Proof.
  intros P P' A A' (E & F & I & T) (E' & F' & I' & T'). rewrite E in E'.
  destruct (tail_unique _ _ _ _ _ _ _ _ P P' I I' T T' E') as [<- C].
  destruct (cut_cases _ _ _ _ C) as [[-> ->]|[(x & X & _)|(x & X & _)]]; auto; exfalso; [eapply (apart_spec ws ws')|eapply (apart_spec ws' ws)]; eauto.
Qed.
Lemma fm_split_spec r ws s a t : means r ws -> plain ws = true -> apart ws ws = true ->
  (fm_split r s (length s) = Some (a, t) <-> exists e, decomp ws s a t e).
Proof.
  intros M P A. split; [apply fm_split_sound; auto|]. intros (e & D).
  destruct (fm_split r s (length s)) as [[a' t']|] eqn:F.
  - destruct (fm_split_sound _ _ _ _ _ _ M F) as (e' & D'). destruct (decomp_unique _ _ _ _ _ _ _ _ _ P P A A D D') as (-> & -> & _). reflexivity.
  - exfalso. eapply (fm_split_complete r ws s (length s)); eauto using decomp_len.
Qed.
Lemma fm_split_none r ws s : means r ws -> plain ws = true -> apart ws ws = true ->
  (fm_split r s (length s) = None <-> forall a t e, ~ decomp ws s a t e).
Proof.
  intros M P A. split.
  - intros N a t e D. eapply (fm_split_complete r ws s (length s)); eauto using decomp_len.
  - intros N. destruct (fm_split r s (length s)) as [[a t]|] eqn:F; auto. exfalso. destruct (fm_split_sound _ _ _ _ _ _ M F) as (e & D). eapply N; eauto.
Qed.

(* ---- the CCPP machine ---- *)
Definition ws_reg := [L "register"].
Definition ws_run := [L "run"].
Definition ws_init := [L "init"; L "initial"; L "initialize"].
Definition ws_final := [L "final"; L "finalize"].
Definition ws_tsi := [L "timestep_init"; L "timestep_initial"; L "timestep_initialize"].
Definition ws_tsf := [L "timestep_final"; L "timestep_finalize"].

Lemma means_init pre : means (init_re pre) [lower pre ++ L "init"; lower pre ++ L "initial"; lower pre ++ L "initialize"].
Proof.
  unfold init_re. eapply means_perm.
  - apply means_cat; [apply means_word|]. apply means_opt. apply means_cat; [apply means_word|]. apply means_opt, means_word.
  - intros x. rewrite lower_app'. cbn. rewrite <- !app_assoc. cbn. tauto.
Qed.
Lemma means_final pre : means (final_re pre) [lower pre ++ L "final"; lower pre ++ L "finalize"].
Proof.
  unfold final_re. eapply means_perm.
  - apply means_cat; [apply means_word|]. apply means_opt, means_word.
  - intros x. rewrite lower_app'. cbn. rewrite <- !app_assoc. cbn. tauto.
Qed.
Lemma means_reg : means (wordi (L "register")) ws_reg. Proof. exact (means_word (L "register")). Qed.
Lemma means_run : means (wordi (L "run")) ws_run. Proof. exact (means_word (L "run")). Qed.

Lemma ccpp_machine_eq : ccpp_machine =
  [mkT (L "timestep_initial") (L "initialized") (L "in_time_step") (init_re (L "timestep_")) 33;
   mkT (L "timestep_final") (L "in_time_step") (L "initialized") (final_re (L "timestep_")) 26;
   mkT (L "initialize") (L "uninitialized") (L "initialized") (init_re []) 24;
   mkT (L "finalize") (L "initialized") (L "uninitialized") (final_re []) 17;
   mkT (L "register") (L "uninitialized") (L "uninitialized") (wordi (L "register")) 12;
   mkT (L "run") (L "in_time_step") (L "in_time_step") (wordi (L "run")) 7].
Proof. reflexivity. Qed.

(* the machine with the words in place of the regular expressions *)
Definition entries : list (str * list str) :=
  [(L "timestep_initial", ws_tsi); (L "timestep_final", ws_tsf); (L "initialize", ws_init); (L "finalize", ws_final);
   (L "register", ws_reg); (L "run", ws_run)].
Inductive same_entry : trans -> str * list str -> Prop :=
| SE n i f r k ws : means r ws -> plain ws = true -> apart ws ws = true -> same_entry (mkT n i f r k) (n, ws).
Lemma machine_entries : Forall2 same_entry ccpp_machine entries.
Proof.
  rewrite ccpp_machine_eq. unfold entries.
  constructor; [constructor; [exact (means_init (L "timestep_"))|reflexivity|reflexivity]|].
  constructor; [constructor; [exact (means_final (L "timestep_"))|reflexivity|reflexivity]|].
  constructor; [constructor; [exact (means_init [])|reflexivity|reflexivity]|].
  constructor; [constructor; [exact (means_final [])|reflexivity|reflexivity]|].
  constructor; [constructor; [exact means_reg|reflexivity|reflexivity]|].
  constructor; [constructor; [exact means_run|reflexivity|reflexivity]|]. constructor.
Qed.
Lemma entries_words p ws : In (p, ws) entries <-> In (p, ws) phase_words.
Proof.
  assert (Q : forall x, In x entries <-> In x phase_words); [|apply Q].
  intros x. unfold entries, phase_words, ws_tsi, ws_tsf, ws_init, ws_final, ws_reg, ws_run. cbn [In]. tauto.
Qed.

Lemma fm_loop_some m es s a t p : Forall2 same_entry m es -> fm_loop m s = Some (a, t, p) ->
  exists ws e l1 l2, es = l1 ++ (p, ws) :: l2 /\ decomp ws s a t e /\
    forall q ws' a' t' e', In (q, ws') l1 -> ~ decomp ws' s a' t' e'.
Proof.
  intros F. induction F as [|x pw m es S F IH]; cbn [fm_loop]; [discriminate|].
  destruct S as [n i f r k ws M P A]. cbn [t_re t_name]. destruct (fm_split r s (length s)) as [[a0 t0]|] eqn:E.
  - intros [= <- <- <-]. apply (fm_split_spec r ws) in E as (e & D); auto. exists ws, e, [], es. split; auto.
  - intros H. destruct (IH H) as (ws0 & e & l1 & l2 & -> & D & N). exists ws0, e, ((n, ws) :: l1), l2. split; auto. split; auto.
    intros q ws' a' t' e' [Q|Q]; [|eapply N; eauto]. injection Q as <- <-. revert a' t' e'. apply (fm_split_none r ws); auto.
Qed.
Lemma fm_loop_none m es s : Forall2 same_entry m es -> fm_loop m s = None ->
  forall q ws a t e, In (q, ws) es -> ~ decomp ws s a t e.
Proof.
  intros F. induction F as [|x pw m es S F IH]; cbn [fm_loop]; [intros _ q ws a t e []|].
  destruct S as [n i f r k ws M P A]. cbn [t_re t_name]. destruct (fm_split r s (length s)) as [[a0 t0]|] eqn:E; [discriminate|].
  intros H q ws' a t e [Q|Q]; [|eapply IH; eauto]. injection Q as <- <-. revert a t e. apply (fm_split_none r ws); auto.
Qed.
Lemma find_entry m es s : Forall2 same_entry m es ->
  match find (fun t => re_dollar (t_re t) s) m with Some t => Some (t_name t) | None => None end =
  match find (fun pw => existsb (str_eqb (lower (match drop_nl s with Some t => t | None => s end))) (snd pw)) es with Some pw => Some (fst pw) | None => None end.
Proof.
  intros F. induction F as [|x pw m es S F IH]; cbn [find]; auto.
  destruct S as [n i f r k ws M P A]. cbn [t_re snd].
  assert (Q : re_dollar r s = existsb (str_eqb (lower (match drop_nl s with Some t => t | None => s end))) ws).
  { apply eq_true_iff_eq. rewrite re_dollar_spec, existsb_exists. rewrite (M s).
    assert (X : (exists x, In x ws /\ str_eqb (lower (match drop_nl s with Some t => t | None => s end)) x = true) <-> In (lower (match drop_nl s with Some t => t | None => s end)) ws).
    { split; [intros (x & X1 & X2); apply str_eqb_eq in X2; now subst|]. intros X. eexists. split; [exact X|apply str_eqb_refl]. }
    rewrite X. destruct (drop_nl s) as [t|] eqn:D.
    - apply drop_nl_spec in D. subst s. split.
      + intros [H|(t' & E & H)]; [|apply M in H; apply app_inj_tail in E as [-> _]; auto]. exfalso.
        apply (plain_no_nl _ _ P H). apply in_app_iff. right. now left.
      + intros H. right. exists t. split; auto. now apply M.
    - split; auto. intros [H|(t' & E & H)]; auto. apply drop_nl_spec in E. congruence. }
  rewrite Q. destruct (existsb _ ws); auto.
Qed.
