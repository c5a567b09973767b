(* PhaseProps.v: property C19, classification of scheme subroutine names. *)
From Verif Require Import Regex PhaseModel PhaseSpec PhaseProofs.
Open Scope nat_scope.
Open Scope list_scope.

Lemma ent_plain p ws : In (p, ws) entries -> plain ws = true.
Proof. intros H. unfold entries in H. repeat (destruct H as [H|H]; [injection H as <- <-; reflexivity|]). destruct H. Qed.
(* an earlier entry and a later one cut the name the same way, unless a timestep_ phase hides init or final *)
Lemma hidden ws ws' p s a t e a' t' e' :
  decomp ws s a t e -> decomp ws' s a' t' e' ->
  (ws = ws_init /\ ws' = ws_tsi /\ p = L "initialize" \/ ws = ws_final /\ ws' = ws_tsf /\ p = L "finalize") -> shadowed a p.
Proof.
  intros (E & F & I & T) (E' & F' & I' & T') C. rewrite E in E'.
  assert (P : plain ws = true /\ plain ws' = true) by (destruct C as [(-> & -> & _)|(-> & -> & _)]; split; reflexivity). destruct P as [P P'].
  destruct (tail_unique _ _ _ _ _ _ _ _ P P' I I' T T' E') as [<- Q].
  split; [destruct C as [(_ & _ & ->)|(_ & _ & ->)]; auto|].
  destruct (cut_cases _ _ _ _ Q) as [[-> ->]|[(x & X & Y)|(x & X & Y)]].
  - exfalso. destruct C as [(-> & -> & _)|(-> & -> & _)]; revert I I'; generalize (lower t'); clear; intros u I I';
      repeat (destruct I as [<-|I]; [repeat (destruct I' as [I'|I']; [vm_compute in I'; discriminate|]); destruct I'|]); destruct I.
  - exfalso. eapply (apart_spec ws ws'); eauto. destruct C as [(-> & -> & _)|(-> & -> & _)]; reflexivity.
  - exists a', x. split; auto. split; [exact Y|]. rewrite X, lower_app' in I'. cbn [lower map] in I'. fold (lower t) in I'.
    change (lower_c "_"%char) with "_"%char in I'.
    assert (K : forall u z, In u (ws_init ++ ws_final) -> In (z ++ "_"%char :: u) (ws_tsi ++ ws_tsf) -> z = L "timestep").
    { clear. intros u z I J.
      assert (SS : forall w z u, w = z ++ "_"%char :: u -> existsb (Ascii.eqb "_") u = false -> z = firstn (length w - S (length u)) w).
      { intros w z0 u0 -> _. rewrite app_length. cbn [length]. replace (length z0 + S (length u0) - S (length u0)) with (length z0) by lia.
        now rewrite firstn_app, Nat.sub_diag, firstn_all, app_nil_r. }
      assert (D : forall w z u, w = z ++ "_"%char :: u -> skipn (length w - S (length u)) w = "_"%char :: u).
      { intros w z0 u0 ->. rewrite app_length. cbn [length]. replace (length z0 + S (length u0) - S (length u0)) with (length z0) by lia.
        now rewrite skipn_app, Nat.sub_diag, skipn_all. }
      cbn [app ws_init ws_final In] in I. cbn [app ws_tsi ws_tsf In] in J.
      repeat (destruct I as [<-|I];
        [repeat (destruct J as [J|J]; [first [exfalso; apply D in J; vm_compute in J; discriminate | apply SS in J; [vm_compute in J; exact J|reflexivity]]|]); destruct J|]).
      destruct I. }
    apply (K (lower t)).
    + apply in_app_iff. destruct C as [(-> & _)|(-> & _)]; auto.
    + apply in_app_iff. destruct C as [(_ & -> & _)|(_ & -> & _)]; auto.
Qed.
(* the converse: a hidden name does have the timestep_ reading *)
Lemma shadow_reading a t p ws e s : In (p, ws) entries -> decomp ws s a t e -> shadowed a p ->
  exists ws' a' t', (p = L "initialize" /\ ws' = ws_tsi \/ p = L "finalize" /\ ws' = ws_tsf) /\ decomp ws' s a' t' e.
Proof.
  intros I (E & F & W & T) ([-> | ->] & g & u & G & -> & U).
  - exists ws_tsi, g, (u ++ "_"%char :: t). split; [auto|]. unfold decomp. split; [rewrite E; cbn [L list_ascii_of_string app]; repeat (rewrite <- app_assoc; cbn [app]); reflexivity|].
    split; auto. split; auto. rewrite lower_app', U. cbn [lower map]. fold (lower t). change (lower_c "_"%char) with "_"%char.
    assert (ws = ws_init). { unfold entries in I. repeat (destruct I as [I|I]; [first [discriminate I | injection I as <-; reflexivity | vm_compute in I; discriminate I]|]). destruct I. }
    subst ws. cbn [ws_init In] in W. destruct W as [<-|[<-|[<-|[]]]]; cbn; auto.
  - exists ws_tsf, g, (u ++ "_"%char :: t). split; [auto|]. unfold decomp. split; [rewrite E; cbn [L list_ascii_of_string app]; repeat (rewrite <- app_assoc; cbn [app]); reflexivity|].
    split; auto. split; auto. rewrite lower_app', U. cbn [lower map]. fold (lower t). change (lower_c "_"%char) with "_"%char.
    assert (ws = ws_final). { unfold entries in I. repeat (destruct I as [I|I]; [first [discriminate I | injection I as <-; reflexivity | vm_compute in I; discriminate I]|]). destruct I. }
    subst ws. cbn [ws_final In] in W. destruct W as [<-|[<-|[]]]; cbn; auto.
Qed.
Definition disj (a b : list str) : bool := forallb (fun x => negb (existsb (str_eqb x) b)) a.
Lemma disj_spec a b x : disj a b = true -> In x a -> In x b -> False.
Proof.
  unfold disj. rewrite forallb_forall. intros D A B. specialize (D x A). apply negb_true_iff in D.
  assert (existsb (str_eqb x) b = true); [|congruence]. apply existsb_exists. exists x. split; auto. apply str_eqb_refl.
Qed.
Lemma entry_pair p ws p' ws' : In (p, ws) entries -> In (p', ws') entries ->
  (p = p' /\ ws = ws') \/ (apart ws ws' = true /\ apart ws' ws = true /\ disj ws ws' = true) \/
  (ws = ws_init /\ ws' = ws_tsi /\ p = L "initialize" \/ ws = ws_final /\ ws' = ws_tsf /\ p = L "finalize") \/
  (ws = ws_tsi /\ ws' = ws_init /\ p' = L "initialize" \/ ws = ws_tsf /\ ws' = ws_final /\ p' = L "finalize").
Proof.
  intros I J. unfold entries in I, J. cbn [In] in I, J.
  repeat (destruct I as [I|I]; [injection I as <- <-;
    repeat (destruct J as [J|J]; [injection J as <- <-;
      first [left; split; reflexivity | right; left; split; [reflexivity|split; reflexivity] | right; right; left; auto; fail | right; right; right; auto; fail]|]); destruct J|]).
  destruct I.
Qed.
(* init comes after timestep_init, final after timestep_final *)
Lemma entry_order p ws l1 l2 : entries = l1 ++ (p, ws) :: l2 ->
  (p = L "initialize" -> In (L "timestep_initial", ws_tsi) l1) /\ (p = L "finalize" -> In (L "timestep_final", ws_tsf) l1).
Proof.
  intros E. unfold entries in E.
  destruct l1 as [|x1 l1]; [injection E as <- _ _; split; intros Q; vm_compute in Q; discriminate|]. injection E as <- E.
  destruct l1 as [|x2 l1]; [injection E as <- _ _; split; intros Q; vm_compute in Q; discriminate|]. injection E as <- E.
  split; intros _; cbn; auto.
Qed.

(* A name is given to scheme f, suffix t and phase p exactly when it reads f_t with t a
   suffix of p and no longer timestep_ suffix fits.  (The last newline, which Python's
   "$" lets through, is spelled out.) *)
Theorem C19_classified : forall s f t p,
  function_match ccpp_machine s None = Ok (Some (f, t, p)) <->
  exists e, (e = [] \/ e = [nl]) /\ s = f ++ L "_" ++ t ++ e /\ scheme_phase f t p /\ ~ shadowed f p.
Proof.
  intros s f t p. unfold function_match. cbn [trans_list bind]. split.
  - intros H. injection H as H. destruct (fm_loop_some _ _ _ _ _ _ machine_entries H) as (ws & e & l1 & l2 & E & D & N).
    assert (I : In (p, ws) entries) by (rewrite E; apply in_app_iff; right; now left).
    destruct D as (D1 & D2 & D3 & D4). exists e. split; [exact D4|]. split; [exact D1|]. split.
    + split; auto. exists ws. split; auto. now apply entries_words.
    + intros S. destruct (shadow_reading f t p ws e s I) as (ws' & a' & t' & C & D'); auto; [unfold decomp; auto|].
      destruct (entry_order _ _ _ _ E) as [O1 O2]. destruct C as [[P ->]|[P ->]]; eapply N; eauto.
  - intros (e & T & E & (F & ws & W & I) & NS). apply entries_words in W. assert (D : decomp ws s f t e) by (unfold decomp; auto).
    destruct (fm_loop ccpp_machine s) as [[[a' t'] p']|] eqn:H; [|exfalso; eapply fm_loop_none; eauto using machine_entries].
    destruct (fm_loop_some _ _ _ _ _ _ machine_entries H) as (ws' & e' & l1 & l2 & E' & D' & N).
    assert (I' : In (p', ws') entries) by (rewrite E'; apply in_app_iff; right; now left).
    destruct (entry_pair _ _ _ _ W I') as [[<- <-]|[(A1 & A2 & A3)|[C|C]]].
    + assert (Q : apart ws ws = true) by (clear - W; unfold entries in W; repeat (destruct W as [W|W]; [injection W as _ <-; reflexivity|]); destruct W).
      destruct (decomp_unique _ _ _ _ _ _ _ _ _ (ent_plain _ _ W) (ent_plain _ _ W) Q Q D D') as (-> & -> & _). reflexivity.
    + exfalso. destruct (decomp_unique _ _ _ _ _ _ _ _ _ (ent_plain _ _ W) (ent_plain _ _ I') A1 A2 D D') as (_ & <- & _).
      destruct D' as (_ & _ & D3 & _). eapply disj_spec; eauto.
    + exfalso. apply NS. eapply hidden; eauto.
    + exfalso. destruct (entry_order _ _ _ _ E') as [O1 O2]. destruct C as [(-> & -> & Q)|(-> & -> & Q)]; eapply N; eauto.
Qed.
Print Assumptions C19_classified.

Lemma fm_function s : exists o, function_match ccpp_machine s None = Ok o.
Proof. unfold function_match. cbn. eauto. Qed.
(* ... so the reading is unique *)
Theorem C19_unambiguous : forall s f t p f' t' p',
  s = f ++ L "_" ++ t -> scheme_phase f t p -> ~ shadowed f p ->
  s = f' ++ L "_" ++ t' -> scheme_phase f' t' p' -> ~ shadowed f' p' ->
  f = f' /\ t = t' /\ p = p'.
Proof.
  intros s f t p f' t' p' E S N E' S' N'.
  assert (A : function_match ccpp_machine s None = Ok (Some (f, t, p))) by (apply C19_classified; exists []; rewrite app_nil_r; auto).
  assert (B : function_match ccpp_machine s None = Ok (Some (f', t', p'))) by (apply C19_classified; exists []; rewrite app_nil_r; auto).
  rewrite A in B. injection B as -> -> ->. auto.
Qed.
Print Assumptions C19_unambiguous.

(* ... the longest suffix wins ... *)
Theorem C19_longest_suffix : forall f t, fortran_name f ->
  (In (lower t) [L "init"; L "initial"; L "initialize"] ->
     function_match ccpp_machine (f ++ L "_timestep_" ++ t) None = Ok (Some (f, L "timestep_" ++ t, L "timestep_initial"))) /\
  (In (lower t) [L "final"; L "finalize"] ->
     function_match ccpp_machine (f ++ L "_timestep_" ++ t) None = Ok (Some (f, L "timestep_" ++ t, L "timestep_final"))).
Proof.
  intros f t F. split; intros I; apply C19_classified; exists []; rewrite app_nil_r; (split; [auto|split; [reflexivity|split]]).
  - split; auto. exists ws_tsi. split; [cbn; auto|]. rewrite lower_app'. destruct I as [<-|[<-|[<-|[]]]]; cbn; auto.
  - intros ([Q|Q] & _); vm_compute in Q; discriminate.
  - split; auto. exists ws_tsf. split; [cbn; auto 8|]. rewrite lower_app'. destruct I as [<-|[<-|[]]]; cbn; auto.
  - intros ([Q|Q] & _); vm_compute in Q; discriminate.
Qed.
Print Assumptions C19_longest_suffix.

(* ... and a name with no reading is refused *)
Theorem C19_unrelated : forall s,
  function_match ccpp_machine s None = Ok None <->
  ~ exists f t p e, (e = [] \/ e = [nl]) /\ s = f ++ L "_" ++ t ++ e /\ scheme_phase f t p.
Proof.
  intros s. split.
  - intros H (f & t & p & e & T & E & F & ws & W & I). unfold function_match in H. cbn [trans_list bind] in H. injection H as H.
    apply entries_words in W. eapply (fm_loop_none _ _ s machine_entries H p ws f t e); eauto. unfold decomp. auto.
  - intros N. destruct (fm_function s) as [[[[f t] p]|] H]; auto. exfalso. apply N. apply C19_classified in H as (e & T & E & S & _). eauto 8.
Qed.
Print Assumptions C19_unrelated.

(* letter case changes nothing but the case of the answer *)
Lemma word_lower c : is_word (lower_c c) = is_word c.
Proof. destruct c as [[] [] [] [] [] [] [] []]; reflexivity. Qed.
Lemma alpha_lower c : is_alpha (lower_c c) = is_alpha c.
Proof. destruct c as [[] [] [] [] [] [] [] []]; reflexivity. Qed.
Lemma lower_c_idem c : lower_c (lower_c c) = lower_c c.
Proof. destruct c as [[] [] [] [] [] [] [] []]; reflexivity. Qed.
Lemma lower_idem s : lower (lower s) = lower s.
Proof. unfold lower. rewrite map_map. apply map_ext. apply lower_c_idem. Qed.
Lemma fname_lower f : fortran_name (lower f) <-> fortran_name f.
Proof.
  split.
  - intros (c & t & E & A & B). destruct f as [|d f]; [discriminate|]. cbn in E. injection E as E1 E2. exists d, f. split; auto.
    rewrite <- E1, alpha_lower in A. split; auto. intros x X. rewrite <- word_lower. apply B. rewrite <- E2. apply in_map. exact X.
  - intros (c & t & -> & A & B). exists (lower_c c), (lower t). split; auto. rewrite alpha_lower. split; auto.
    intros x X. apply in_map_iff in X as (y & <- & Y). rewrite word_lower. auto.
Qed.
Lemma lower_split s a b : lower s = a ++ b -> exists u v, s = u ++ v /\ lower u = a /\ lower v = b.
Proof.
  revert s. induction a as [|c a IH]; intros s E; [exists [], s; auto|].
  destruct s as [|d s]; [discriminate|]. cbn in E. injection E as E1 E2. destruct (IH s E2) as (u & v & -> & <- & <-).
  exists (d :: u), v. cbn. rewrite E1. auto.
Qed.
Lemma lower_c_under c : lower_c c = "_"%char -> c = "_"%char.
Proof. destruct c as [[] [] [] [] [] [] [] []]; vm_compute; congruence. Qed.
Theorem C19_case_insensitive : forall s,
  function_match ccpp_machine (lower s) None =
  Ok (match function_match ccpp_machine s None with
      | Ok (Some (f, t, p)) => Some (lower f, lower t, p)
      | _ => None
      end).
Proof.
  intros s. destruct (fm_function s) as [[[[f t] p]|] H]; rewrite H.
  - apply C19_classified. apply C19_classified in H as (e & T & -> & (F & ws & W & I) & N). exists e. split; auto.
    split; [destruct T as [-> | ->]; rewrite ?app_nil_r, !lower_app'; reflexivity|]. split.
    + split; [now apply fname_lower|]. exists ws. rewrite lower_idem. auto.
    + intros (P & g & u & G & E & U). apply N. split; auto. apply lower_split in E as (g' & r & -> & <- & E).
      apply (lower_split r (L "_") u) in E as (v & u' & -> & V & <-). destruct v as [|c [|d v]]; [discriminate| |discriminate].
      injection V as V. apply lower_c_under in V. subst c. exists g', u'. split; [now apply fname_lower|]. split; auto. now rewrite lower_idem in U.
  - apply C19_unrelated. apply C19_unrelated in H as N. intros (f & t & p & e & T & E & F & ws & W & I). apply N.
    apply lower_split in E as (f' & r & -> & <- & E). apply (lower_split r (L "_") _) in E as (v & r' & -> & V & E).
    destruct v as [|c [|d v]]; [discriminate| |discriminate]. injection V as V. apply lower_c_under in V. subst c.
    apply lower_split in E as (t' & e' & -> & <- & E). exists f', t', p, e'.
    split. { destruct T as [-> | ->]; [left; destruct e'; [auto|discriminate]|]. right. destruct e' as [|c [|d e']]; try discriminate. injection E as E. apply lower_c_nl in E. now subst. }
    split; auto. split; [now apply fname_lower|]. exists ws. rewrite lower_idem in I. auto.
Qed.
Print Assumptions C19_case_insensitive.

(* transition_match: exactly the suffix words *)
Theorem C19_transition_match : forall s p,
  transition_match ccpp_machine s None = Ok (Some p) <->
  exists w e ws, s = w ++ e /\ (e = [] \/ e = [nl]) /\ In (p, ws) phase_words /\ In (lower w) ws.
Proof.
  intros s p. unfold transition_match. cbn [trans_list bind]. rewrite (find_entry _ _ s machine_entries).
  set (b := match drop_nl s with Some t => t | None => s end).
  assert (X : (exists w e ws, s = w ++ e /\ (e = [] \/ e = [nl]) /\ In (p, ws) phase_words /\ In (lower w) ws) <->
    exists ws, In (p, ws) entries /\ In (lower b) ws).
  { split.
    - intros (w & e & ws & -> & T & W & I). exists ws. apply entries_words in W. split; auto. unfold b.
      destruct T as [-> | ->].
      + rewrite app_nil_r. destruct (drop_nl w) eqn:D; auto. exfalso. apply drop_nl_spec in D.
        apply (plain_no_nl _ _ (ent_plain _ _ W) I). subst w. apply in_app_iff. right. now left.
      + replace (drop_nl (w ++ [nl])) with (Some w) by (symmetry; now apply drop_nl_spec). auto.
    - intros (ws & W & I). unfold b in I. destruct (drop_nl s) as [t|] eqn:D.
      + apply drop_nl_spec in D. exists t, [nl], ws. rewrite <- entries_words. auto.
      + exists s, [], ws. rewrite app_nil_r, <- entries_words. auto. }
  rewrite X. generalize (lower b). clear. intros u.
  assert (G : forall pw, In pw entries -> existsb (str_eqb u) (snd pw) = true <-> In u (snd pw)).
  { intros pw _. rewrite existsb_exists. split; [intros (x & A & B); apply str_eqb_eq in B; now subst|]. intros A. exists u. split; auto. apply str_eqb_refl. }
  split.
  - intros H. destruct (find _ entries) as [[q ws]|] eqn:F; [|discriminate]. injection H as <-. apply find_some in F as [F1 F2].
    exists ws. split; auto. now apply G in F2.
  - intros (ws & W & I). destruct (find (fun pw => existsb (str_eqb u) (snd pw)) entries) as [[q ws']|] eqn:F.
    + apply find_some in F as [F1 F2]. apply G in F2; auto. cbn [snd fst] in *.
      assert (Q : q = p); [|now subst]. destruct (entry_pair _ _ _ _ W F1) as [[-> _]|[(_ & _ & D)|[C|C]]]; auto; exfalso.
      * eapply disj_spec; eauto.
      * assert (D : disj ws ws' = true) by (destruct C as [(-> & -> & _)|(-> & -> & _)]; reflexivity). eapply disj_spec; eauto.
      * assert (D : disj ws ws' = true) by (destruct C as [(-> & -> & _)|(-> & -> & _)]; reflexivity). eapply disj_spec; eauto.
    + exfalso. pose proof (find_none _ _ F _ W) as K. cbn [snd] in K. apply (G (p, ws)) in I; auto. cbn [snd] in I. congruence.
Qed.
Print Assumptions C19_transition_match.

(* ---- any state machine ---- *)
(* histories of additions and deletions; a rejected operation leaves the machine as it was *)
Inductive mop := Add (t : trans) | Del (n : str).
Definition mstep (m : machine) (o : mop) : machine :=
  match (match o with Add t => add_transition m t | Del n => del_transition m n end) with Ok m' => m' | Raise _ => m end.
Definition mrun (ops : list mop) : machine := fold_left mstep ops [].
Lemma has_name_in n m : has_name n m = true <-> In n (map t_name m).
Proof.
  unfold has_name. rewrite existsb_exists, in_map_iff. split; intros (t & A & B); exists t; [apply str_eqb_eq in B|]; auto. split; auto. apply str_eqb_eq. auto.
Qed.
Theorem C19_machine_names_unique : forall ops, NoDup (map t_name (mrun ops)).
Proof.
  intros ops. unfold mrun. assert (G : forall m, NoDup (map t_name m) -> NoDup (map t_name (fold_left mstep ops m))); [|apply G; constructor].
  induction ops as [|o ops IH]; intros m N; cbn [fold_left]; auto. apply IH. unfold mstep. destruct o as [t|n].
  - unfold add_transition. destruct (has_name (t_name t) m) eqn:H; auto. rewrite map_app. cbn [map]. apply NoDup_snoc; auto.
    rewrite <- has_name_in. congruence.
  - unfold del_transition. destruct (has_name n m); auto. clear -N. induction m as [|x m IH]; cbn [List.filter]; auto.
    apply NoDup_cons_iff in N as [N1 N2]. destruct (negb (str_eqb n (t_name x))); cbn [map]; auto. constructor; auto.
    intros K. apply N1. apply in_map_iff in K as (y & Y1 & Y2). apply filter_In in Y2 as [Y2 _]. apply in_map_iff. eauto.
Qed.
Print Assumptions C19_machine_names_unique.
Theorem C19_machine_lookup : forall m t m', NoDup (map t_name m) ->
  (add_transition m t = Ok m' ->
     find_trans m (t_name t) = None /\ find_trans m' (t_name t) = Some t /\ forall n, n <> t_name t -> find_trans m' n = find_trans m n) /\
  (find_trans m (t_name t) <> None -> exists x, add_transition m t = Raise x) /\
  (forall n, del_transition m n = Ok m' -> find_trans m n <> None /\ find_trans m' n = None /\ forall k, k <> n -> find_trans m' k = find_trans m k).
Proof.
  intros m t m' N.
  assert (FH : forall n, find_trans m n = None <-> has_name n m = false).
  { intros n. unfold find_trans, has_name. clear N. induction m as [|x m IH]; cbn [find existsb]; [tauto|]. destruct (str_eqb n (t_name x)); cbn; [split; discriminate|auto]. }
  split; [|split].
  - unfold add_transition. destruct (has_name (t_name t) m) eqn:H; [discriminate|]. intros [= <-]. split; [now apply FH|].
    assert (A : forall n, find_trans (m ++ [t]) n = match find_trans m n with Some x => Some x | None => if str_eqb n (t_name t) then Some t else None end).
    { intros n. unfold find_trans. clear. induction m as [|x m IH]; cbn [find app]; auto. destruct (str_eqb n (t_name x)); auto. }
    split; [rewrite A, (proj2 (FH _) H), str_eqb_refl; auto|]. intros n K. rewrite A. apply str_eqb_neq in K. rewrite K. destruct (find_trans m n); auto.
  - intros K. unfold add_transition. destruct (has_name (t_name t) m) eqn:H; eauto. apply FH in H. contradiction.
  - intros n. unfold del_transition. destruct (has_name n m) eqn:H; [|discriminate]. intros [= <-]. split; [intros K; apply FH in K; congruence|]. split.
    + unfold find_trans. clear. induction m as [|x m IH]; cbn [List.filter find]; auto. destruct (str_eqb n (t_name x)) eqn:Q; cbn [negb find]; auto. rewrite Q. auto.
    + intros k K. unfold find_trans. clear -K. induction m as [|x m IH]; cbn [List.filter find]; auto.
      destruct (str_eqb n (t_name x)) eqn:Q; cbn [negb find].
      * apply str_eqb_eq in Q. subst n. apply str_eqb_neq in K. now rewrite K.
      * destruct (str_eqb k (t_name x)); auto.
Qed.
Print Assumptions C19_machine_lookup.

(* ---- concrete cases ---- *)
Example C19_ex1 : function_match ccpp_machine (L "Foo_Timestep_Init") None = Ok (Some (L "Foo", L "Timestep_Init", L "timestep_initial")).
Proof. vm_compute. reflexivity. Qed.
Example C19_ex2 : function_match ccpp_machine (L "foo_initialize_bar") None = Ok None /\
  function_match ccpp_machine (L "timestep_init") None = Ok (Some (L "timestep", L "init", L "initialize")) /\
  function_match ccpp_machine (L "foo_run_final") None = Ok (Some (L "foo_run", L "final", L "finalize")).
Proof. vm_compute. auto. Qed.
Example C19_ex3 : scheme_phase (L "foo_run") (L "Final") (L "finalize") /\ ~ shadowed (L "foo_run") (L "finalize").
Proof.
  split.
  - split; [|exists [L "final"; L "finalize"]; cbn; auto 10].
    exists "f"%char, (L "oo_run"). split; auto. split; [reflexivity|]. intros d D. apply (proj1 (forallb_forall is_word (L "oo_run")) eq_refl d D).
  - intros (_ & g & u & _ & E & U).
    assert (LU : length u = 8) by (rewrite <- (map_length lower_c u); fold (lower u); rewrite U; reflexivity).
    apply (f_equal (@length ascii)) in E. rewrite !app_length in E. cbn in E. lia.
Qed.
Example C19_ex4 : NoDup (map t_name ccpp_machine) /\ exists x, add_transition ccpp_machine (mkT (L "run") [] [] Eps 0) = Raise x.
Proof. split; [|vm_compute; eauto]. assert (Q : NoDup (map (fun n => n) (map t_name ccpp_machine))); [|now rewrite map_id in Q]. vm_compute.
  repeat (constructor; [cbn; intuition discriminate|]). constructor. Qed.
