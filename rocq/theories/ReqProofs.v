From Verif Require Import PyStr ReqModel ReqSpec.
Open Scope nat_scope.
Open Scope list_scope.

(* ---- sets ---- *)
Lemma mem_in x s : mem x s = true <-> In x s.
Proof.
  unfold mem. rewrite existsb_exists. split.
  - intros (y & H1 & H2). apply str_eqb_eq in H2. now subst.
  - intros H. exists x. split; auto. apply str_eqb_refl.
Qed.
Lemma mem_not x s : mem x s = false <-> ~ In x s.
Proof. rewrite <- mem_in. destruct (mem x s); split; intros; congruence || auto. Qed.
Lemma in_dec_str (x : str) s : In x s \/ ~ In x s.
Proof. destruct (mem x s) eqn:E; [left; now apply mem_in|right; now apply mem_not]. Qed.
Lemma in_s_add s x y : In y (s_add s x) <-> In y s \/ y = x.
Proof.
  unfold s_add. destruct (mem x s) eqn:E.
  - apply mem_in in E. split; [auto|]. intros [H| ->]; auto.
  - rewrite in_app_iff. cbn. intuition congruence.
Qed.
Lemma in_s_union s t y : In y (s_union s t) <-> In y s \/ In y t.
Proof.
  unfold s_union. revert s. induction t as [|x t IH]; intros s; cbn [fold_left]; [cbn; tauto|].
  rewrite IH, in_s_add. cbn. intuition congruence.
Qed.
Lemma in_s_inter s t y : In y (s_inter s t) <-> In y s /\ In y t.
Proof. unfold s_inter. rewrite filter_In, mem_in. tauto. Qed.
Lemma in_s_diff s t y : In y (s_diff s t) <-> In y s /\ ~ In y t.
Proof. unfold s_diff. rewrite filter_In, negb_true_iff, mem_not. tauto. Qed.
Lemma nd_add s x : NoDup s -> NoDup (s_add s x).
Proof.
  intros H. unfold s_add. destruct (mem x s) eqn:E; auto. apply mem_not in E.
  eapply Permutation_NoDup; [apply Permutation_cons_append|]. now constructor.
Qed.
Lemma nd_union s t : NoDup s -> NoDup (s_union s t).
Proof. unfold s_union. revert s. induction t as [|x t IH]; intros s H; cbn; auto. apply IH. now apply nd_add. Qed.
Lemma nd_diff s t : NoDup s -> NoDup (s_diff s t).
Proof. intros. now apply NoDup_filter. Qed.
Lemma nd_inter s t : NoDup s -> NoDup (s_inter s t).
Proof. intros. now apply NoDup_filter. Qed.
Lemma nonempty_false {A} (l : list A) : nonempty l = false <-> l = [].
Proof. destruct l; cbn; split; congruence. Qed.
Lemma insert_perm x l : Permutation (insert x l) (x :: l).
Proof.
  induction l as [|y l IH]; cbn [insert]; [reflexivity|]. destruct (str_leb x y); [reflexivity|].
  rewrite IH. apply perm_swap.
Qed.
Lemma sorted_perm l : Permutation (sorted l) l.
Proof. induction l as [|x l IH]; cbn; [reflexivity|]. rewrite insert_perm. now constructor. Qed.
Lemma sorted_length l : length (sorted l) = length l.
Proof. apply Permutation_length, sorted_perm. Qed.
Lemma in_sorted l y : In y (sorted l) <-> In y l.
Proof. split; apply Permutation_in; [|symmetry]; apply sorted_perm. Qed.
Lemma nd_sorted l : NoDup l -> NoDup (sorted l).
Proof. intros H. eapply Permutation_NoDup; [symmetry; apply sorted_perm|exact H]. Qed.

Lemma count_nodup l : NoDup (fold_left s_union l []) /\ forall y, In y (fold_left s_union l []) <-> exists s, In s l /\ In y s.
Proof.
  assert (G : forall l s, NoDup s -> NoDup (fold_left s_union l s) /\
     forall y, In y (fold_left s_union l s) <-> In y s \/ exists t, In t l /\ In y t).
  { induction l0 as [|t r IH]; intros s H; cbn [fold_left].
    - split; auto. intros y. split; auto. intros [K|(t & [] & _)]; auto.
    - destruct (IH (s_union s t) (nd_union _ _ H)) as [A B]. split; auto.
      intros y. rewrite B, in_s_union. cbn [In]. split.
      + intros [[K|K]|(u & K1 & K2)]; eauto 6.
      + intros [K|(u & [<-|K1] & K2)]; eauto. }
  destruct (G l [] (NoDup_nil _)) as [A B]. split; auto. intros y. rewrite B. cbn. intuition.
Qed.
(* the size of a union is the length of any duplicate-free list of its elements *)
Lemma count_length l w : NoDup w -> (forall y, In y w <-> exists s, In s l /\ In y s) -> count l = length w.
Proof.
  intros ND H. destruct (count_nodup l) as [A B]. unfold count. apply Permutation_length.
  apply NoDup_Permutation; auto. intros y. rewrite B, H. tauto.
Qed.

(* membership, computed *)
Lemma mem_eq x s t : (In x s <-> In x t) -> mem x s = mem x t.
Proof. intros H. rewrite <- !mem_in in H. destruct (mem x s), (mem x t); intuition congruence. Qed.
Lemma mem_app x s t : mem x (s ++ t) = mem x s || mem x t.
Proof. unfold mem. apply existsb_app. Qed.
Lemma mem_sorted x s : mem x (sorted s) = mem x s.
Proof. apply mem_eq, in_sorted. Qed.
Lemma mem_union x s t : mem x (s_union s t) = mem x s || mem x t.
Proof. rewrite <- mem_app. apply mem_eq. rewrite in_s_union, in_app_iff. tauto. Qed.
Lemma mem_diff x s t : mem x (s_diff s t) = mem x s && negb (mem x t).
Proof.
  apply eq_true_iff_eq. rewrite andb_true_iff, negb_true_iff, mem_not, !mem_in. apply in_s_diff.
Qed.
Lemma mem_inter x s t : mem x (s_inter s t) = mem x s && mem x t.
Proof. apply eq_true_iff_eq. rewrite andb_true_iff, !mem_in. apply in_s_inter. Qed.
Lemma mem_if (b : bool) x s t : mem x (if b then s else t) = if b then mem x s else mem x t.
Proof. now destruct b. Qed.

(* ---- execution of assignments ---- *)
Definition filled (s : rstate) (w : list str) (k : nat) : Prop := r_list s = map Some w ++ repeat None k.
Lemma exec_put_all f (rel : bool) : forall l i s w k,
  filled s w k -> (if rel then r_num s else 0) + i = length w + 1 -> length l <= k ->
  exec f (put_all rel i l) s = Some (mkR (r_num s) (map Some (w ++ l) ++ repeat None (k - length l))).
Proof.
  induction l as [|x l IH]; intros i s w k F B L; cbn [put_all exec length] in *.
  - rewrite app_nil_r, Nat.sub_0_r. unfold filled in F. rewrite <- F. now destruct s.
  - destruct k as [|k]; [lia|]. unfold filled in F.
    assert (K : (if rel then r_num s + i else i) = length w + 1) by (destruct rel; lia).
    rewrite K. rewrite F, app_length, map_length, repeat_length.
    replace ((1 <=? length w + 1) && (length w + 1 <=? length w + S k)) with true
      by (symmetry; apply andb_true_iff; split; apply Nat.leb_le; lia).
    replace (length w + 1 - 1) with (length (map (@Some str) w)) by (rewrite map_length; lia).
    cbn [repeat]. rewrite list_set_split.
    rewrite (IH (S i) _ (w ++ [x]) k).
    + cbn [r_num]. rewrite <- app_assoc. cbn [app Nat.sub]. reflexivity.
    + unfold filled. cbn [r_list]. rewrite map_app, <- app_assoc. reflexivity.
    + cbn [r_num]. rewrite app_length. cbn. destruct rel; lia.
    + lia.
Qed.
Lemma exec_puts f (rel : bool) l i s w k :
  filled s w k -> (if rel then r_num s else 0) + i = length w + 1 -> length l <= k ->
  exec f (puts rel i l) s = Some (mkR (r_num s) (map Some (w ++ sorted l) ++ repeat None (k - length l))).
Proof.
  intros F B L. unfold puts. rewrite (exec_put_all f rel (sorted l) i s w k F B) by (rewrite sorted_length; exact L).
  now rewrite sorted_length.
Qed.
Lemma exec_puts_nil f rel i s : exec f (puts rel i []) s = Some s.
Proof. reflexivity. Qed.

(* ---- the fill code ---- *)
(* [tail f c] : the lists written, in order *)
Section Fill.
Variable c : coll.
Variable f : flags.
Let i := c_in c. Let io := c_io c. Let o := c_out c.
Let ew1 := s_union (leaves io) (elems io).
Let lw1 := s_union (leaves io) (arrays io).
Let lw2 := s_union lw1 (leaves i).
Let ew2 := s_union (s_union ew1 (leaves i)) (elems i).
Let lw3 := s_union lw2 (leaves o).
Let ew3 := s_union ew2 (leaves o).
Let p1 := if f_elems f then s_diff (elems io) (leaves io) else s_diff (arrays io) (leaves io).
Let l2 := s_diff (leaves i) lw1.
Let p2 := if f_elems f then s_diff (elems i) ew1 else s_diff (arrays i) lw2.
Let l4 := s_diff (leaves o) lw2.
Let p3 := if f_elems f then s_diff (elems o) ew3 else s_diff (arrays o) lw3.
Let cross := s_diff (s_inter (leaves o) (leaves i)) lw1.

Definition fill1 : list str := sorted (leaves io) ++ sorted p1.
Definition fill2 : list str := if f_in f then sorted l2 ++ sorted p2 else [].
Definition fill3 : list str := if f_out f then sorted l4 ++ sorted p3 ++ (if f_in f then [] else sorted cross) else [].
Definition filling : list str := if f_in f || f_out f then fill1 ++ fill2 ++ fill3 else [].

Hypothesis SEP1 : s_diff (elems io) (leaves io) = [] -> s_diff (arrays io) (leaves io) = [] -> arrays io = [].
Hypothesis SEP2 : s_diff (elems i) ew1 = [] -> s_diff (arrays i) lw2 = [].
Hypothesis SEP3 : s_diff (elems o) ew3 = [] -> s_diff (arrays o) lw3 = [].
Hypothesis EC : s_diff (s_diff (s_inter (elems o) (elems i)) (s_inter (leaves o) (leaves i))) ew1 = [].
Hypothesis SC : cross = [] \/ s_diff (s_diff (s_inter (arrays o) (arrays i)) (s_inter (leaves o) (leaves i))) lw1 = [].
Hypothesis NS : cross = [] \/ (s_diff (elems o) ew3 = [] /\ s_diff (arrays o) lw3 = []).
Hypothesis FF : cross = [] \/ f_in f || f_out f = true.

Lemma emit_fills : forall n, n = length filling ->
  exists m, exec f (emit c) (mkR n (repeat None n)) = Some (mkR m (map Some filling)).
Proof using SEP1 SEP2 SEP3 EC SC NS FF.
  intros n HN. unfold emit. fold i io o.
  cbv zeta. fold lw1 ew1. fold lw2 ew2. fold lw3 ew3. fold cross. rewrite EC.
  cbn [nonempty orb].
  (* cross code *)
  set (CR := if nonempty cross || false then _ else Nop).
  assert (CRE : cross = [] -> CR = Nop) by (intros Z; unfold CR; now rewrite Z).
  assert (CRF : cross <> [] -> CR = IfC CNotIn (Seq (puts true (1 + length (s_diff (leaves o) lw2)) cross) Nop)).
  { intros Z. destruct SC as [K|K]; [contradiction|]. destruct NS as [K2|[K2 K3]]; [contradiction|].
    unfold CR. rewrite K, K2, K3. cbn [nonempty orb]. destruct cross; [contradiction|]. reflexivity. }
  clearbody CR.
  set (two1 := nonempty (s_diff (elems io) (leaves io)) || nonempty (s_diff (arrays io) (leaves io))).
  (* first block *)
  assert (B1 : f_in f || f_out f = true -> forall k, length fill1 <= k ->
     exec f (wrap (nonempty (leaves io) || nonempty (arrays io) || nonempty (elems io)) CInOrOut
        (Seq (puts false 1 (leaves io))
           (if two1 then
              IfElems (Seq (puts false (1 + length (leaves io)) (s_diff (elems io) (leaves io)))
                         (SetNum ((if two1 then 1 + length (leaves io) + length (s_diff (elems io) (leaves io)) else 1 + length (leaves io)) - 1)))
                      (Seq (puts false (1 + length (leaves io)) (s_diff (arrays io) (leaves io)))
                         (SetNum ((if two1 then 1 + length (leaves io) + length (s_diff (arrays io) (leaves io)) else 1 + length (leaves io)) - 1)))
            else SetNum (length lw1)))) (mkR n (repeat None k))
     = Some (mkR (length fill1) (map Some fill1 ++ repeat None (k - length fill1)))).
  { intros IO k HK. unfold wrap.
    assert (BODY : exec f (Seq (puts false 1 (leaves io))
           (if two1 then
              IfElems (Seq (puts false (1 + length (leaves io)) (s_diff (elems io) (leaves io)))
                         (SetNum ((if two1 then 1 + length (leaves io) + length (s_diff (elems io) (leaves io)) else 1 + length (leaves io)) - 1)))
                      (Seq (puts false (1 + length (leaves io)) (s_diff (arrays io) (leaves io)))
                         (SetNum ((if two1 then 1 + length (leaves io) + length (s_diff (arrays io) (leaves io)) else 1 + length (leaves io)) - 1)))
            else SetNum (length lw1))) (mkR n (repeat None k))
       = Some (mkR (length fill1) (map Some fill1 ++ repeat None (k - length fill1)))).
    { unfold fill1 in HK |- *. rewrite app_length, !sorted_length in HK.
      cbn [exec]. rewrite (exec_puts f false (leaves io) 1 (mkR n (repeat None k)) [] k) by (reflexivity || lia).
      cbn [app r_num]. destruct two1 eqn:T.
      - cbn [exec]. case_eq (f_elems f); intros FE.
        + assert (HP : p1 = s_diff (elems io) (leaves io)) by (unfold p1; now rewrite FE). rewrite HP in HK |- *.
          rewrite (exec_puts f false _ _ _ (sorted (leaves io)) (k - length (leaves io)))
            by (reflexivity || (rewrite sorted_length; lia) || lia).
          cbn [r_list]. do 2 f_equal; [rewrite app_length, !sorted_length; lia|].
          rewrite app_length, !sorted_length. f_equal. f_equal. lia.
        + assert (HP : p1 = s_diff (arrays io) (leaves io)) by (unfold p1; now rewrite FE). rewrite HP in HK |- *.
          rewrite (exec_puts f false _ _ _ (sorted (leaves io)) (k - length (leaves io)))
            by (reflexivity || (rewrite sorted_length; lia) || lia).
          cbn [r_list]. do 2 f_equal; [rewrite app_length, !sorted_length; lia|].
          rewrite app_length, !sorted_length. f_equal. f_equal. lia.
      - apply orb_false_iff in T as [T1 T2]. apply nonempty_false in T1, T2.
        assert (P1E : p1 = []) by (unfold p1; case (f_elems f); assumption).
        rewrite P1E. cbn [sorted fold_right]. rewrite app_nil_r, sorted_length. cbn [exec r_list]. do 3 f_equal.
        unfold lw1. rewrite (SEP1 T1 T2). reflexivity. }
    destruct (nonempty (leaves io) || nonempty (arrays io) || nonempty (elems io)); [|exact BODY].
    cbn [exec holds]. rewrite IO. exact BODY. }
  set (e1 := if two1 then 1 + length (leaves io) + length (s_diff (elems io) (leaves io)) else 1 + length (leaves io)) in *.
  set (a1 := if two1 then 1 + length (leaves io) + length (s_diff (arrays io) (leaves io)) else 1 + length (leaves io)) in *.
  assert (E1 : f_elems f = true -> e1 = length fill1 + 1).
  { intros Z. unfold e1, fill1, p1. rewrite Z, app_length, !sorted_length. destruct two1 eqn:T; [lia|].
    apply orb_false_iff in T as [T1 T2]. apply nonempty_false in T1. rewrite T1. cbn. lia. }
  assert (A1 : f_elems f = false -> a1 = length fill1 + 1).
  { intros Z. unfold a1, fill1, p1. rewrite Z, app_length, !sorted_length. destruct two1 eqn:T; [lia|].
    apply orb_false_iff in T as [T1 T2]. apply nonempty_false in T2. rewrite T2. cbn. lia. }
  clearbody e1 a1.
  match goal with |- exists m, exec f (Seq (wrap _ _ ?X) (Seq (wrap ?h2 CIn ?Y) (wrap ?h3 COut ?Z))) _ = _ =>
    set (BY := Y); set (BZ := Z); set (H2 := h2); set (H3 := h3) end.
  (* second block, as if reached *)
  assert (B2 : forall w k, length w = length fill1 -> length (sorted l2 ++ sorted p2) <= k ->
     exec f BY (mkR (length w) (map Some w ++ repeat None k))
     = Some (mkR (length w + length (sorted l2 ++ sorted p2)) (map Some (w ++ sorted l2 ++ sorted p2) ++ repeat None (k - length (sorted l2 ++ sorted p2))))).
  { intros w k HW HK. rewrite app_length, !sorted_length in HK. unfold BY. fold l2.
    cbn [exec]. rewrite (exec_puts f true l2 1 (mkR (length w) (map Some w ++ repeat None k)) w k) by (reflexivity || cbn; lia).
    cbn [r_num].
    assert (AD : exec f (if nonempty l2 then AddNum (length l2) else Nop) (mkR (length w) (map Some (w ++ sorted l2) ++ repeat None (k - length l2)))
      = Some (mkR (length w + length l2) (map Some (w ++ sorted l2) ++ repeat None (k - length l2)))).
    { destruct l2; cbn; [now rewrite Nat.add_0_r|reflexivity]. }
    rewrite AD. rewrite app_length, !sorted_length.
    destruct (nonempty (s_diff (elems i) ew1) || nonempty (s_diff (arrays i) lw2)) eqn:T.
    - cbn [exec]. case_eq (f_elems f); intros FE.
      + assert (HP : p2 = s_diff (elems i) ew1) by (unfold p2; now rewrite FE). rewrite HP in HK |- *.
        rewrite (exec_puts f false _ _ _ (w ++ sorted l2) (k - length l2)); [|reflexivity| |lia].
        * cbn [r_list]. rewrite <- app_assoc. do 2 f_equal; [rewrite (E1 FE); lia|]. f_equal. f_equal. lia.
        * rewrite app_length, sorted_length, (E1 FE). lia.
      + assert (HP : p2 = s_diff (arrays i) lw2) by (unfold p2; now rewrite FE). rewrite HP in HK |- *.
        rewrite (exec_puts f false _ _ _ (w ++ sorted l2) (k - length l2)); [|reflexivity| |lia].
        * cbn [r_list]. rewrite <- app_assoc. do 2 f_equal; [rewrite (A1 FE); lia|]. f_equal. f_equal. lia.
        * rewrite app_length, sorted_length, (A1 FE). lia.
    - apply orb_false_iff in T as [T1 T2]. apply nonempty_false in T1, T2.
      assert (P2E : p2 = []) by (unfold p2; case (f_elems f); assumption).
      rewrite P2E. cbn [exec sorted fold_right length]. rewrite app_nil_r, Nat.add_0_r. reflexivity. }
  (* third block, as if reached *)
  assert (B3 : forall w k, (f_in f = false -> f_out f = true) ->
     length (sorted l4 ++ sorted p3 ++ (if f_in f then [] else sorted cross)) <= k ->
     exec f BZ (mkR (length w) (map Some w ++ repeat None k))
     = Some (mkR (length w) (map Some (w ++ sorted l4 ++ sorted p3 ++ (if f_in f then [] else sorted cross))
           ++ repeat None (k - length (sorted l4 ++ sorted p3 ++ (if f_in f then [] else sorted cross)))))).
  { intros w k IO HK. rewrite !app_length, !sorted_length in HK. unfold BZ. fold l4.
    cbn [exec]. rewrite (exec_puts f true l4 1 (mkR (length w) (map Some w ++ repeat None k)) w k) by (reflexivity || cbn; lia).
    cbn [r_num].
    assert (P3X : exec f (if nonempty (s_diff (elems o) ew3) || nonempty (s_diff (arrays o) lw3)
           then IfElems (puts true (1 + length l4) (s_diff (elems o) ew3)) (puts true (1 + length l4) (s_diff (arrays o) lw3)) else Nop)
          (mkR (length w) (map Some (w ++ sorted l4) ++ repeat None (k - length l4)))
        = Some (mkR (length w) (map Some (w ++ sorted l4 ++ sorted p3) ++ repeat None (k - length l4 - length p3)))).
    { destruct (nonempty (s_diff (elems o) ew3) || nonempty (s_diff (arrays o) lw3)) eqn:T.
      - cbn [exec]. case_eq (f_elems f); intros FE;
        [assert (HP : p3 = s_diff (elems o) ew3) by (unfold p3; now rewrite FE)
        |assert (HP : p3 = s_diff (arrays o) lw3) by (unfold p3; now rewrite FE)]; rewrite HP in HK |- *;
        (rewrite (exec_puts f true _ _ _ (w ++ sorted l4) (k - length l4)); [|reflexivity| |lia];
         [rewrite <- app_assoc; reflexivity|cbn [r_num]; rewrite app_length, sorted_length; lia]).
      - apply orb_false_iff in T as [T1 T2]. apply nonempty_false in T1, T2.
        assert (P3E : p3 = []) by (unfold p3; case (f_elems f); assumption).
        rewrite P3E. cbn [exec sorted fold_right length]. rewrite app_nil_r, Nat.sub_0_r. reflexivity. }
    rewrite P3X. clear P3X.
    assert (DC : cross = [] \/ cross <> []) by (destruct cross; [now left|right; discriminate]).
    destruct DC as [Z|Z].
    - rewrite (CRE Z), Z. cbn [exec]. replace (if f_in f then [] else sorted []) with (@nil str) by (destruct (f_in f); reflexivity).
      rewrite !app_nil_r. do 3 f_equal. rewrite app_length, !sorted_length. f_equal. lia.
    - rewrite (CRF Z). destruct NS as [K2|[K2 K3]]; [contradiction|].
      assert (P3E : p3 = []) by (unfold p3; case (f_elems f); assumption).
      rewrite P3E in HK |- *. cbn [sorted fold_right length app] in HK |- *. rewrite Nat.sub_0_r, app_nil_r.
      cbn [exec holds]. destruct (f_in f) eqn:FI; cbn [negb].
      + rewrite app_nil_r, sorted_length. reflexivity.
      + rewrite sorted_length in HK.
        rewrite (exec_puts f true cross _ _ (w ++ sorted l4) (k - length l4)); [|reflexivity| |lia].
        * cbn [r_num]. rewrite <- app_assoc. do 3 f_equal. rewrite app_length, !sorted_length. f_equal. lia.
        * cbn [r_num]. fold l4. rewrite app_length, sorted_length. lia. }
  assert (W2 : forall s, f_in f = false -> exec f (wrap H2 CIn BY) s = Some s).
  { intros s FI. unfold wrap, H2. destruct (nonempty (s_diff (elems i) ew1) || nonempty (s_diff (leaves i) lw1)) eqn:T.
    - cbn [exec holds]. now rewrite FI.
    - apply orb_false_iff in T as [T1 T2]. apply nonempty_false in T1, T2.
      unfold BY. rewrite T2, T1, (SEP2 T1). reflexivity. }
  assert (W3 : forall s, f_out f = false -> exec f (wrap H3 COut BZ) s = Some s).
  { intros s FO. unfold wrap, H3. destruct (nonempty (s_diff (elems o) ew3) || nonempty (s_diff (leaves o) lw2)) eqn:T.
    - cbn [exec holds]. now rewrite FO.
    - apply orb_false_iff in T as [T1 T2]. apply nonempty_false in T1, T2.
      unfold BZ. rewrite T2, T1, (SEP3 T1). cbn [nonempty orb exec puts put_all sorted fold_right].
      assert (DC : cross = [] \/ cross <> []) by (destruct cross; [now left|right; discriminate]).
      destruct DC as [Z|Z]; [rewrite (CRE Z); reflexivity|].
      destruct FF as [K|K]; [contradiction|]. rewrite FO, orb_false_r in K.
      rewrite (CRF Z). cbn [exec holds]. now rewrite K. }
  unfold filling in HN |- *. destruct (f_in f || f_out f) eqn:IO.
  - assert (X2 : exists k, n = length fill1 + length fill2 + k /\ k = length fill3).
    { exists (length fill3). rewrite HN, !app_length. lia. }
    destruct X2 as (k & X2 & X3).
    cbn [exec]. rewrite (B1 eq_refl n) by lia.
    assert (F2 : exec f (wrap H2 CIn BY) (mkR (length fill1) (map Some fill1 ++ repeat None (n - length fill1)))
       = Some (mkR (length (fill1 ++ fill2)) (map Some (fill1 ++ fill2) ++ repeat None (n - length (fill1 ++ fill2))))).
    { unfold fill2 in X2 |- *. destruct (f_in f) eqn:FI.
      - replace (exec f (wrap H2 CIn BY)) with (exec f BY).
        2: { unfold wrap. destruct H2; [|reflexivity]. cbn [exec holds]. now rewrite FI. }
        rewrite B2 by (try reflexivity; lia). do 3 f_equal; [now rewrite (app_length fill1)|]. rewrite (app_length fill1). f_equal. lia.
      - rewrite W2 by reflexivity. now rewrite app_nil_r. }
    rewrite F2. clear F2.
    unfold fill3 in HN, X3 |- *. destruct (f_out f) eqn:FO.
    + replace (exec f (wrap H3 COut BZ)) with (exec f BZ).
      2: { unfold wrap. destruct H3; [|reflexivity]. cbn [exec holds]. now rewrite FO. }
      rewrite B3 by (auto; rewrite (app_length fill1); lia). eexists. f_equal. f_equal.
      match goal with |- _ ++ repeat None ?z = _ => replace z with 0 by (rewrite (app_length fill1); lia) end.
      cbn [repeat]. rewrite app_nil_r, <- app_assoc. reflexivity.
    + rewrite W3 by reflexivity. eexists. f_equal. f_equal. rewrite app_nil_r. cbn in X3.
      replace (n - length (fill1 ++ fill2)) with 0 by (rewrite (app_length fill1); lia). cbn. now rewrite app_nil_r.
  - cbn in HN. subst n. apply orb_false_iff in IO as [FI FO].
    cbn [exec]. 
    assert (F1 : exists m, exec f (wrap (nonempty (leaves io) || nonempty (arrays io) || nonempty (elems io)) CInOrOut
        (Seq (puts false 1 (leaves io))
           (if two1 then
              IfElems (Seq (puts false (1 + length (leaves io)) (s_diff (elems io) (leaves io))) (SetNum (e1 - 1)))
                      (Seq (puts false (1 + length (leaves io)) (s_diff (arrays io) (leaves io))) (SetNum (a1 - 1)))
            else SetNum (length lw1)))) (mkR 0 (repeat None 0)) = Some (mkR m [])).
    { unfold wrap. destruct (nonempty (leaves io) || nonempty (arrays io) || nonempty (elems io)) eqn:T.
      - cbn [exec holds]. rewrite FI, FO. cbn. eauto.
      - apply orb_false_iff in T as [T T3]. apply orb_false_iff in T as [T1 T2].
        apply nonempty_false in T1, T2, T3. unfold two1. rewrite T1, T2, T3. cbn. eauto. }
    destruct F1 as [m F1]. rewrite F1, W2, W3 by assumption. eauto.
Qed.
End Fill.

(* ---- the collected sets ---- *)
Section Collect.
Variable el : str -> list str.

Definition vs_char (P : str -> Prop) (s : vset) : Prop :=
  (forall x, In x (leaves s) <-> P x /\ el x = []) /\
  (forall x, In x (arrays s) <-> P x /\ el x <> []) /\
  (forall z, In z (elems s) <-> exists x, P x /\ In z (el x)) /\
  NoDup (leaves s) /\ NoDup (arrays s) /\ NoDup (elems s).
Lemma vs_char_ext P Q s : (forall x, P x <-> Q x) -> vs_char P s -> vs_char Q s.
Proof using.
  intros E (A & B & C & D). split; [|split; [|split]]; auto; intros x.
  - rewrite A, E. tauto. - rewrite B, E. tauto.
  - rewrite C. split; intros (y & H1 & H2); exists y; split; auto; now apply E.
Qed.
Lemma vs_char_empty : vs_char (fun _ => False) vs_empty.
Proof using.
  split; [|split; [|split; [|split; [|split]]]]; cbn; try constructor; try tauto. intros (y & [] & _).
Qed.
Lemma vs_add_char P s x : vs_char P s -> vs_char (fun y => P y \/ y = x) (vs_add el s x).
Proof using.
  intros (A & B & C & D1 & D2 & D3). unfold vs_add. case_eq (el x); [intros E|intros e0 er E]; cbn [nonempty].
  - split; [|split; [|split; [|split; [|split]]]]; cbn [leaves arrays elems]; auto using nd_add.
    + intros y. rewrite in_s_add, A. split; [intros [[H1 H2]|H1]; [auto|subst y; auto]|intros [[H1|H1] H2]; auto].
    + intros y. rewrite B. split; [intros [H1 H2]; auto|intros [[H1|H1] H2]; [auto|subst y; contradiction]].
    + intros z. rewrite C. split.
      * intros (y & H1 & H2). eauto.
      * intros (y & [H1|H1] & H2); [eauto|]. subst y. rewrite E in H2. destruct H2.
  - split; [|split; [|split; [|split; [|split]]]]; cbn [leaves arrays elems]; auto using nd_add, nd_union.
    + intros y. rewrite A. split; [intros [H1 H2]; auto|intros [[H1|H1] H2]; [auto|subst y; congruence]].
    + intros y. rewrite in_s_add, B. split; [intros [[H1 H2]|H1]; [auto|subst y]|intros [[H1|H1] H2]; auto].
      split; [now right|]. rewrite E. discriminate.
    + intros z. rewrite in_s_union, C, <- E. split.
      * intros [(y & H1 & H2)|H]; eauto.
      * intros (y & [H1|H1] & H2); [eauto|subst y; eauto].
Qed.

Definition coll_ok (vars : list cvar) (c : coll) : Prop :=
  vs_char (wants_in vars) (c_in c) /\ vs_char (wants_io vars) (c_io c) /\ vs_char (wants_out vars) (c_out c) /\
  (forall x, In x (c_cinit c) <-> initialised vars x).

Lemma snoc_split {A} (l : list A) v a w b : l ++ [v] = a ++ w :: b ->
  (b = [] /\ a = l /\ w = v) \/ (exists b', b = b' ++ [v] /\ l = a ++ w :: b').
Proof using.
  intros H. destruct (exists_last (l := w :: b)) as (b' & z & E); [discriminate|].
  rewrite E, app_assoc in H. apply app_inj_tail in H as [H1 H2]. subst z.
  destruct b' as [|w' b'].
  - injection E as -> ->. left. rewrite app_nil_r in H1. auto.
  - injection E as -> ->. right. exists b'. auto.
Qed.
Lemma initialised_snoc pre v x : initialised (pre ++ [v]) x <->
  initialised pre x \/ (v_std v = x /\ v_const v = true /\ v_intent v = Out_ /\ v_init v = true).
Proof using.
  unfold initialised. split.
  - intros (u & H & K). apply in_app_iff in H as [H|[<-|[]]]; [left; eauto|right; auto].
  - intros [(u & H & K)|K]; [exists u; rewrite in_app_iff; auto|exists v; rewrite in_app_iff; cbn; auto].
Qed.
Lemma wants_in_snoc pre v x : wants_in (pre ++ [v]) x <->
  wants_in pre x \/ (v_std v = x /\ v_intent v = In_ /\ v_prot v = false /\ ~ initialised pre x).
Proof using.
  unfold wants_in. split.
  - intros (a & w & b & E & K). apply snoc_split in E as [(-> & -> & ->)|(b' & -> & ->)]; [right; exact K|left; eauto 8].
  - intros [(a & w & b & -> & K)|K].
    + exists a, w, (b ++ [v]). rewrite <- app_assoc. auto.
    + exists pre, v, []. auto.
Qed.
Lemma wants_io_snoc pre v x : wants_io (pre ++ [v]) x <->
  wants_io pre x \/ (v_std v = x /\ v_intent v = InOut_ /\ ~ initialised pre x).
Proof using.
  unfold wants_io. split.
  - intros (a & w & b & E & K). apply snoc_split in E as [(-> & -> & ->)|(b' & -> & ->)]; [right; exact K|left; eauto 8].
  - intros [(a & w & b & -> & K)|K].
    + exists a, w, (b ++ [v]). rewrite <- app_assoc. auto.
    + exists pre, v, []. auto.
Qed.
Lemma wants_out_snoc pre v x : wants_out (pre ++ [v]) x <->
  wants_out pre x \/ (v_std v = x /\ v_intent v = Out_ /\ v_const v && v_init v = false).
Proof using.
  unfold wants_out. split.
  - intros (u & H & K). apply in_app_iff in H as [H|[<-|[]]]; [left; eauto|right; auto].
  - intros [(u & H & K)|K]; [exists u; rewrite in_app_iff; auto|exists v; rewrite in_app_iff; cbn; auto].
Qed.

(* a constituent may not first be set outside the init phase *)
Definition bad_constituent (before : list cvar) (v : cvar) : Prop :=
  v_const v = true /\ v_intent v = Out_ /\ v_init v = false /\ ~ initialised before (v_std v).

Lemma collect_one_spec pre c v : coll_ok pre c ->
  match collect_one el c v with
  | Ok c' => coll_ok (pre ++ [v]) c' /\ ~ bad_constituent pre v
  | Raise _ => bad_constituent pre v
  end.
Proof using.
  intros (A & B & C & D).
  assert (CI : forall x, mem x (c_cinit c) = true <-> initialised pre x) by (intros; rewrite mem_in; apply D).
  assert (CN : forall x, mem x (c_cinit c) = false <-> ~ initialised pre x).
  { intros x. rewrite <- CI. destruct (mem x (c_cinit c)); split; intros; congruence || auto. }
  unfold collect_one, bad_constituent. destruct v as [x it pr co ini]. cbn [v_std v_intent v_prot v_const v_init].
  destruct it.
  - split; [|intros (_ & K & _); discriminate].
    destruct (negb pr && negb (mem x (c_cinit c))) eqn:T.
    + apply andb_true_iff in T as [T1 T2]. rewrite negb_true_iff in T1, T2. apply CN in T2.
      split; [|split; [|split]]; cbn [c_in c_io c_out c_cinit].
      * eapply vs_char_ext; [|apply vs_add_char; exact A]. intros y. rewrite wants_in_snoc. cbn.
        split; [intros [K| ->]; auto|intros [K|(K & _)]; auto].
      * eapply vs_char_ext; [|exact B]. intros y. rewrite wants_io_snoc. cbn. split; [auto|]. intros [K|(_ & K & _)]; [auto|discriminate].
      * eapply vs_char_ext; [|exact C]. intros y. rewrite wants_out_snoc. cbn. split; [auto|]. intros [K|(_ & K & _)]; [auto|discriminate].
      * intros y. rewrite D, initialised_snoc. cbn. split; [auto|]. intros [K|(_ & _ & K & _)]; [auto|discriminate].
    + assert (N : ~ (pr = false /\ ~ initialised pre x)).
      { intros [K1 K2]. apply CN in K2. rewrite K1, K2 in T. discriminate. }
      split; [|split; [|split]].
      * eapply vs_char_ext; [|exact A]. intros y. rewrite wants_in_snoc. cbn. split; [auto|].
        intros [K|(<- & _ & K1 & K2)]; [auto|]. exfalso. apply N. auto.
      * eapply vs_char_ext; [|exact B]. intros y. rewrite wants_io_snoc. cbn. split; [auto|]. intros [K|(_ & K & _)]; [auto|discriminate].
      * eapply vs_char_ext; [|exact C]. intros y. rewrite wants_out_snoc. cbn. split; [auto|]. intros [K|(_ & K & _)]; [auto|discriminate].
      * intros y. rewrite D, initialised_snoc. cbn. split; [auto|]. intros [K|(_ & _ & K & _)]; [auto|discriminate].
  - split; [|intros (_ & K & _); discriminate].
    destruct (negb (mem x (c_cinit c))) eqn:T; rewrite ?negb_true_iff, ?negb_false_iff in T.
    + apply CN in T.
      split; [|split; [|split]]; cbn [c_in c_io c_out c_cinit].
      * eapply vs_char_ext; [|exact A]. intros y. rewrite wants_in_snoc. cbn. split; [auto|]. intros [K|(_ & K & _)]; [auto|discriminate].
      * eapply vs_char_ext; [|apply vs_add_char; exact B]. intros y. rewrite wants_io_snoc. cbn.
        split; [intros [K| ->]; auto|intros [K|(K & _)]; auto].
      * eapply vs_char_ext; [|exact C]. intros y. rewrite wants_out_snoc. cbn. split; [auto|]. intros [K|(_ & K & _)]; [auto|discriminate].
      * intros y. rewrite D, initialised_snoc. cbn. split; [auto|]. intros [K|(_ & _ & K & _)]; [auto|discriminate].
    + apply CI in T. split; [|split; [|split]].
      * eapply vs_char_ext; [|exact A]. intros y. rewrite wants_in_snoc. cbn. split; [auto|]. intros [K|(_ & K & _)]; [auto|discriminate].
      * eapply vs_char_ext; [|exact B]. intros y. rewrite wants_io_snoc. cbn. split; [auto|].
        intros [K|(<- & _ & K2)]; [auto|contradiction].
      * eapply vs_char_ext; [|exact C]. intros y. rewrite wants_out_snoc. cbn. split; [auto|]. intros [K|(_ & K & _)]; [auto|discriminate].
      * intros y. rewrite D, initialised_snoc. cbn. split; [auto|]. intros [K|(_ & _ & K & _)]; [auto|discriminate].
  - assert (CASE : (co = true /\ ini = true) \/ co && ini = false) by (destruct co, ini; auto).
    destruct (co && (negb ini && negb (mem x (c_cinit c)))) eqn:T.
    + apply andb_true_iff in T as [T1 T]. apply andb_true_iff in T as [T2 T3]. rewrite negb_true_iff in T2, T3.
      apply CN in T3. auto.
    + assert (NB : ~ (co = true /\ Out_ = Out_ /\ ini = false /\ ~ initialised pre x)).
      { intros (K1 & _ & K2 & K3). apply CN in K3. rewrite K1, K2, K3 in T. discriminate. }
      destruct CASE as [[-> ->]|CASE].
      * cbn [andb]. split; [|exact NB]. split; [|split; [|split]]; cbn [c_in c_io c_out c_cinit].
        -- eapply vs_char_ext; [|exact A]. intros y. rewrite wants_in_snoc. cbn. split; [auto|]. intros [K|(_ & K & _)]; [auto|discriminate].
        -- eapply vs_char_ext; [|exact B]. intros y. rewrite wants_io_snoc. cbn. split; [auto|]. intros [K|(_ & K & _)]; [auto|discriminate].
        -- eapply vs_char_ext; [|exact C]. intros y. rewrite wants_out_snoc. cbn. split; [auto|]. intros [K|(_ & _ & K)]; [auto|discriminate].
        -- intros y. rewrite in_s_add, D, initialised_snoc. cbn. split; [intros [K| ->]; auto|intros [K|(K & _)]; auto].
      * rewrite CASE. split; [|exact NB]. split; [|split; [|split]]; cbn [c_in c_io c_out c_cinit].
        -- eapply vs_char_ext; [|exact A]. intros y. rewrite wants_in_snoc. cbn. split; [auto|]. intros [K|(_ & K & _)]; [auto|discriminate].
        -- eapply vs_char_ext; [|exact B]. intros y. rewrite wants_io_snoc. cbn. split; [auto|]. intros [K|(_ & K & _)]; [auto|discriminate].
        -- eapply vs_char_ext; [|apply vs_add_char; exact C]. intros y. rewrite wants_out_snoc. cbn.
           split; [intros [K| ->]; auto|intros [K|(K & _)]; auto].
        -- intros y. rewrite D, initialised_snoc. cbn. split; [auto|].
           intros [K|(_ & K1 & _ & K2)]; [auto|]. rewrite K1, K2 in CASE. discriminate.
Qed.

Lemma collect_spec : forall vars pre c, coll_ok pre c ->
  match collect el c vars with
  | Ok c' => coll_ok (pre ++ vars) c' /\ (forall a v b, vars = a ++ v :: b -> ~ bad_constituent (pre ++ a) v)
  | Raise _ => exists a v b, vars = a ++ v :: b /\ bad_constituent (pre ++ a) v
  end.
Proof using.
  induction vars as [|v r IH]; intros pre c H; cbn [collect].
  - rewrite app_nil_r. split; auto. intros a v b K. destruct a; discriminate.
  - pose proof (collect_one_spec pre c v H) as H1. destruct (collect_one el c v) as [c1|e]; cbn [bind].
    + destruct H1 as [H1 NB]. specialize (IH (pre ++ [v]) c1 H1). destruct (collect el c1 r) as [c2|e].
      * rewrite <- app_assoc in IH. cbn in IH. destruct IH as [I1 I2]. split; auto.
        intros a w b E. destruct a as [|w' a]; injection E as -> E.
        -- now rewrite app_nil_r.
        -- specialize (I2 a w b E). now rewrite <- app_assoc in I2.
      * destruct IH as (a & w & b & -> & K). exists (v :: a), w, b. rewrite <- app_assoc in K. auto.
    + exists [], v, r. rewrite app_nil_r. auto.
Qed.
Lemma coll_empty_ok : coll_ok [] coll_empty.
Proof using.
  assert (X : forall P, (forall x, ~ P x) -> vs_char P vs_empty).
  { intros P N. eapply vs_char_ext; [|exact vs_char_empty]. intros x. split; [tauto|]. apply N. }
  split; [|split; [|split]]; try apply X.
  - intros x (a & v & b & E & _). destruct a; discriminate.
  - intros x (a & v & b & E & _). destruct a; discriminate.
  - intros x (v & [] & _).
  - intros x. cbn. split; [tauto|]. intros (u & [] & _).
Qed.
End Collect.

Lemma NoDup_app_intro {A} (a b : list A) : NoDup a -> NoDup b -> (forall y, In y a -> ~ In y b) -> NoDup (a ++ b).
Proof.
  induction a as [|x a IH]; intros Ha Hb H; cbn; auto. inversion Ha; subst. constructor.
  - rewrite in_app_iff. intros [K|K]; [auto|]. apply (H x); cbn; auto.
  - apply IH; auto. intros y Hy. apply H. cbn; auto.
Qed.

(* names in play *)
Lemma wants_in_names vars x : wants_in vars x -> In x (map v_std vars).
Proof. intros (a & v & b & -> & <- & _). apply in_map. apply in_or_app. right. now left. Qed.
Lemma wants_io_names vars x : wants_io vars x -> In x (map v_std vars).
Proof. intros (a & v & b & -> & <- & _). apply in_map. apply in_or_app. right. now left. Qed.
Lemma wants_out_names vars x : wants_out vars x -> In x (map v_std vars).
Proof. intros (v & H & <- & _). now apply in_map. Qed.

Section Main.
Variable el : str -> list str.
Variable vars : list cvar.
Variable c : coll.
Variable f : flags.
Hypothesis OK : coll_ok el vars c.
Hypothesis SEP : well_separated el vars.
Hypothesis HC : no_cross vars \/ (no_structs el vars /\ f_in f || f_out f = true).

Lemma nil_no_in (l : list str) : (forall y, ~ In y l) -> l = [].
Proof using. destruct l as [|x l]; auto. intros H. exfalso. apply (H x). now left. Qed.

(* facts about single names *)
Ltac chars := destruct OK as ((IL & IA & IE & IL' & IA' & IE') & (OL & OA & OE & OL' & OA' & OE') & (UL & UA & UE & UL' & UA' & UE') & _).
Lemma leaf_facts y : (In y (leaves (c_in c)) \/ In y (leaves (c_io c)) \/ In y (leaves (c_out c))) ->
  ~ In y (arrays (c_in c)) /\ ~ In y (arrays (c_io c)) /\ ~ In y (arrays (c_out c)) /\
  ~ In y (elems (c_in c)) /\ ~ In y (elems (c_io c)) /\ ~ In y (elems (c_out c)).
Proof using OK SEP.
  chars. destruct SEP as [S1 S2]. intros H.
  assert (Y : el y = [] /\ In y (map v_std vars)).
  { destruct H as [H|[H|H]]; [apply IL in H|apply OL in H|apply UL in H]; destruct H as [H1 H2]; split; auto;
      eauto using wants_in_names, wants_io_names, wants_out_names. }
  destruct Y as [Y1 Y2]. rewrite IA, OA, UA, IE, OE, UE.
  repeat split; try (intros (_ & K); contradiction);
    intros (x & K1 & K2); refine (S2 x y _ K2 Y2); eauto using wants_in_names, wants_io_names, wants_out_names.
Qed.
Lemma owner_in y x : In y (el x) -> In x (map v_std vars) ->
  (In y (elems (c_in c)) -> wants_in vars x) /\ (In y (elems (c_io c)) -> wants_io vars x) /\ (In y (elems (c_out c)) -> wants_out vars x).
Proof using OK SEP.
  chars. destruct SEP as [S1 S2]. intros HY HX. rewrite IE, OE, UE.
  split; [|split]; intros (x' & K1 & K2);
    rewrite (S1 x x' y HX); eauto using wants_in_names, wants_io_names, wants_out_names.
Qed.
Lemma arr_cross y : In y (arrays (c_out c)) -> In y (arrays (c_in c)) -> In y (arrays (c_io c)).
Proof using OK HC.
  chars. rewrite IA, OA, UA. intros [A1 A2] [B1 B2]. destruct HC as [N|[N _]].
  - split; auto.
  - exfalso. apply A2, N. eauto using wants_out_names.
Qed.
Lemma elem_cross_in y : In y (elems (c_out c)) -> In y (elems (c_in c)) -> In y (elems (c_io c)).
Proof using OK HC SEP.
  intros A B. pose proof (owner_in y) as OW. chars. pose proof A as A'. apply UE in A as (x & A1 & A2).
  assert (X : In x (map v_std vars)) by eauto using wants_out_names.
  destruct (OW x A2 X) as (W1 & W2 & W3). apply OE. exists x. split; auto.
  destruct HC as [N|[N _]]; [auto|]. rewrite (N x X) in A2. destruct A2.
Qed.
Lemma arr_elem : (elems (c_in c) = [] -> arrays (c_in c) = []) /\ (elems (c_io c) = [] -> arrays (c_io c) = []) /\
  (elems (c_out c) = [] -> arrays (c_out c) = []).
Proof using OK.
  chars. split; [|split]; intros Z; apply nil_no_in; intros y H.
  - apply IA in H as [H1 H2]. destruct (el y) as [|z r] eqn:E; [contradiction|].
    assert (K : In z (elems (c_in c))) by (apply IE; exists y; rewrite E; cbn; auto). rewrite Z in K. destruct K.
  - apply OA in H as [H1 H2]. destruct (el y) as [|z r] eqn:E; [contradiction|].
    assert (K : In z (elems (c_io c))) by (apply OE; exists y; rewrite E; cbn; auto). rewrite Z in K. destruct K.
  - apply UA in H as [H1 H2]. destruct (el y) as [|z r] eqn:E; [contradiction|].
    assert (K : In z (elems (c_out c))) by (apply UE; exists y; rewrite E; cbn; auto). rewrite Z in K. destruct K.
Qed.

Ltac sets := repeat rewrite ?in_s_union, ?in_s_diff, ?in_s_inter, ?in_sorted, ?in_app_iff in *.
(* decided by running through the truth values of the nine memberships *)
Definition all (P : bool -> bool) : bool := P true && P false.
Lemma all_ok P : all P = true -> forall b, P b = true.
Proof using. unfold all. intros H. apply andb_true_iff in H as [H1 H2]. intros [|]; assumption. Qed.
Lemma bfacts y :
  let m := fun s => mem y s in
  implb (m (leaves (c_in c)) || m (leaves (c_io c)) || m (leaves (c_out c)))
    (negb (m (arrays (c_in c)) || m (arrays (c_io c)) || m (arrays (c_out c)) || m (elems (c_in c)) || m (elems (c_io c)) || m (elems (c_out c))))
  && implb (m (arrays (c_out c)) && m (arrays (c_in c))) (m (arrays (c_io c)))
  && implb (m (elems (c_out c)) && m (elems (c_in c))) (m (elems (c_io c))) = true.
Proof using OK SEP HC.
  cbv zeta beta. pose proof (leaf_facts y) as H1. pose proof (arr_cross y) as H2. pose proof (elem_cross_in y) as H3.
  rewrite <- !mem_in in H2, H3. rewrite <- !mem_not in H1. rewrite <- !mem_in in H1.
  destruct (mem y (leaves (c_in c)) || mem y (leaves (c_io c)) || mem y (leaves (c_out c))) eqn:E1.
  - rewrite !orb_true_iff in E1. destruct H1 as (A1 & A2 & A3 & A4 & A5 & A6); [destruct E1 as [[E1|E1]|E1]; auto|].
    now rewrite A1, A2, A3, A4, A5, A6.
  - cbn [implb andb].
    destruct (mem y (arrays (c_out c)) && mem y (arrays (c_in c))) eqn:E2;
      [apply andb_true_iff in E2 as [E2 E2']; rewrite (H2 E2 E2')|];
    (destruct (mem y (elems (c_out c)) && mem y (elems (c_in c))) eqn:E3;
      [apply andb_true_iff in E3 as [E3 E3']; rewrite (H3 E3 E3')|]); reflexivity.
Qed.
Lemma implb_mp a b : a = true -> implb a b = true -> b = true.
Proof using. intros ->. auto. Qed.
Ltac gen t := match goal with |- ?G = true => let P := eval pattern t in G in
  match P with ?F _ => change (F t = true); apply (all_ok F) end end.
Ltac bools y :=
  refine (implb_mp _ _ (bfacts y) _); cbv zeta beta; clear;
  gen (mem y (leaves (c_in c))); gen (mem y (leaves (c_io c))); gen (mem y (leaves (c_out c)));
  gen (mem y (arrays (c_in c))); gen (mem y (arrays (c_io c))); gen (mem y (arrays (c_out c)));
  gen (mem y (elems (c_in c))); gen (mem y (elems (c_io c))); gen (mem y (elems (c_out c)));
  try gen (f_in f); try gen (f_out f); try gen (f_elems f); vm_compute; reflexivity.
Ltac mems := repeat (progress (rewrite ?mem_if, ?mem_app, ?mem_sorted, ?mem_diff, ?mem_inter, ?mem_union)).
Ltac facts y := pose proof (leaf_facts y); pose proof (arr_cross y); pose proof (elem_cross_in y).

Lemma fills : alloc_size c f = length (filling c f) ->
  run_suite c f = Some (map Some (filling c f)).
Proof using OK SEP HC.
  intros N. unfold run_suite. rewrite N.
  assert (X : exists m, exec f (emit c) (mkR (length (filling c f)) (repeat None (length (filling c f)))) = Some (mkR m (map Some (filling c f)))).
  { apply emit_fills; auto.
    - intros Z1 Z2. apply nil_no_in. intros y H. assert (K : In y (s_diff (arrays (c_io c)) (leaves (c_io c)))).
      { apply in_s_diff. split; auto. facts y. tauto. }
      rewrite Z2 in K. destruct K.
    - intros Z. apply nil_no_in. intros y H. sets. destruct H as [H1 H2].
      pose proof OK as ((_ & IA & IE & _) & (_ & OA & OE & _) & _).
      apply IA in H1 as [H1 H1']. destruct (el y) as [|z r] eqn:E; [contradiction|].
      assert (Hz : In z (el y)) by (rewrite E; now left).
      assert (K : In z (elems (c_in c))) by (apply IE; eauto).
      assert (K2 : In z (elems (c_io c))).
      { destruct (in_dec_str z (s_diff (elems (c_in c)) (s_union (leaves (c_io c)) (elems (c_io c))))) as [Q|Q]; [rewrite Z in Q; destruct Q|].
        sets. facts z. destruct (in_dec_str z (leaves (c_io c))); [tauto|]. destruct (in_dec_str z (elems (c_io c))); tauto. }
      destruct (owner_in z y Hz (wants_in_names _ _ H1)) as (_ & W & _). specialize (W K2).
      assert (In y (arrays (c_io c))) by (apply OA; split; auto; congruence). tauto.
    - intros Z. apply nil_no_in. intros y H. sets. destruct H as [H1 H2].
      pose proof OK as ((_ & IA & IE & _) & (_ & OA & OE & _) & (_ & UA & UE & _) & _).
      pose proof H1 as H0. apply UA in H1 as [H1 H1']. destruct (el y) as [|z r] eqn:E; [contradiction|].
      assert (Hz : In z (el y)) by (rewrite E; now left).
      assert (K : In z (elems (c_out c))) by (apply UE; eauto).
      destruct (owner_in z y Hz (wants_out_names _ _ H1)) as (W1 & W2 & W3).
      assert (K2 : In z (elems (c_io c)) \/ In z (elems (c_in c))).
      { match type of Z with ?s = [] => destruct (in_dec_str z s) as [Q|Q]; [rewrite Z in Q; destruct Q|] end.
        rewrite <- !mem_in, <- orb_true_iff. apply mem_in in K. rewrite <- mem_in in Q. revert Q. mems. intros Q.
        match type of Q with ?q <> true => assert (R : q || negb (mem z (elems (c_out c))) || (mem z (elems (c_io c)) || mem z (elems (c_in c))) = true) end.
        { clear - OK SEP HC. bools z. }
        apply not_true_iff_false in Q. rewrite Q, K in R. exact R. }
      assert (Q1 : wants_io vars y -> In y (arrays (c_io c))) by (intros; apply OA; split; auto; congruence).
      assert (Q2 : wants_in vars y -> In y (arrays (c_in c))) by (intros; apply IA; split; auto; congruence).
      destruct K2 as [K2|K2]; [tauto|]. specialize (Q2 (W1 K2)). pose proof (arr_cross y H0 Q2). tauto.
    - apply nil_no_in. intros y H. sets. facts y. tauto.
    - destruct HC as [NC|[NST _]].
      + left. apply nil_no_in. intros y H. sets.
        pose proof OK as ((IL & _) & (OL & _) & (UL & _) & _).
        destruct H as [[H1 H2] H3]. apply UL in H1 as [H1 H1']. apply IL in H2 as [H2 _].
        apply H3. left. apply OL. split; auto.
      + right. apply nil_no_in. intros y H. sets. destruct H as [[[H _] _] _].
        pose proof OK as (_ & _ & (_ & UA & _) & _). apply UA in H as [H1 H2]. apply H2, NST. eauto using wants_out_names.
    - destruct HC as [NC|[NST _]].
      + left. apply nil_no_in. intros y H. sets.
        pose proof OK as ((IL & _) & (OL & _) & (UL & _) & _).
        destruct H as [[H1 H2] H3]. apply UL in H1 as [H1 H1']. apply IL in H2 as [H2 _].
        apply H3. left. apply OL. split; auto.
      + right. pose proof OK as (_ & _ & (_ & UA & UE & _) & _).
        split; apply nil_no_in; intros y H; sets; destruct H as [H _].
        * apply UE in H as (x & H1 & H2). rewrite (NST x) in H2 by eauto using wants_out_names. destruct H2.
        * apply UA in H as [H1 H2]. apply H2, NST. eauto using wants_out_names.
    - destruct HC as [NC|[NST IO]]; [|now right].
      left. apply nil_no_in. intros y H. sets.
      pose proof OK as ((IL & _) & (OL & _) & (UL & _) & _).
      destruct H as [[H1 H2] H3]. apply UL in H1 as [H1 H1']. apply IL in H2 as [H2 _].
      apply H3. left. apply OL. split; auto. }
  destruct X as [m X]. now rewrite X.
Qed.

Definition part (s : vset) (y : str) : Prop := In y (leaves s) \/ (if f_elems f then In y (elems s) else In y (arrays s)).
Definition wanted (y : str) : Prop :=
  (f_in f = true /\ (part (c_in c) y \/ part (c_io c) y)) \/ (f_out f = true /\ (part (c_out c) y \/ part (c_io c) y)).

Lemma filling_nodup : NoDup (filling c f).
Proof using OK SEP HC.
  pose proof OK as ((IL & IA & IE & IL' & IA' & IE') & (OL & OA & OE & OL' & OA' & OE') & (UL & UA & UE & UL' & UA' & UE') & _).
  unfold filling, fill1, fill2, fill3.
  clear IL IA IE OL OA OE UL UA UE.
  case (f_in f); case (f_out f); case (f_elems f); cbn [orb];
  repeat first [ apply NoDup_app_intro | apply nd_sorted | apply nd_diff | apply nd_inter | assumption | apply NoDup_nil ];
  clear - OK SEP HC;
  (intros y H1 H2; apply mem_in in H1; apply mem_in in H2;
   match type of H1 with ?a = _ => match type of H2 with ?b = _ => assert (R : negb (a && b) = true); [|rewrite H1, H2 in R; discriminate] end end;
   clear H1 H2; mems; cbn [mem existsb]; bools y).
Qed.

Lemma filling_in y : In y (filling c f) <-> wanted y.
Proof using OK SEP HC.
  unfold wanted, part, filling, fill1, fill2, fill3.
  assert (I2 : forall (b : bool) (u v : list str), (if b then In y u else In y v) <-> mem y (if b then u else v) = true)
    by (intros [|] u v; rewrite mem_in; tauto).
  rewrite !I2, <- !mem_in, <- !orb_true_iff, <- !andb_true_iff, <- !orb_true_iff. apply eq_iff_eq_true. 
  mems. cbn [mem existsb]. apply eqb_prop. clear I2.
  bools y.
Qed.

Lemma size_ok : alloc_size c f = length (filling c f).
Proof using OK SEP HC.
  pose proof filling_nodup as ND. pose proof filling_in as FI. unfold wanted, part in FI.
  pose proof arr_elem as (AE1 & AE2 & AE3).
  unfold alloc_size. cbv zeta.
  case_eq (f_in f); intros FIN; case_eq (f_out f); intros FO; cbn [andb]; rewrite ?FIN, ?FO in FI.
  - destruct ((nonempty (elems (c_in c)) || nonempty (elems (c_io c)) || nonempty (elems (c_out c))) && f_elems f) eqn:HE.
    + apply andb_true_iff in HE as [_ FE]. apply count_length; auto. intros y. rewrite FI, FE. cbn [In].
      split; [intros K|intros (s & K1 & K2)].
      * assert (E : In y (leaves (c_in c)) \/ In y (elems (c_in c)) \/ In y (leaves (c_io c)) \/ In y (elems (c_io c)) \/ In y (leaves (c_out c)) \/ In y (elems (c_out c))) by tauto.
        destruct E as [E|[E|[E|[E|[E|E]]]]]; eexists; (split; [|exact E]); tauto.
      * decompose [or] K1; subst; tauto.
    + assert (EQ : forall y, (if f_elems f then In y (elems (c_in c)) else In y (arrays (c_in c))) <-> In y (arrays (c_in c))).
      { intros y. destruct (f_elems f); [|tauto]. rewrite andb_true_r in HE. apply orb_false_iff in HE as [HE H3].
        apply orb_false_iff in HE as [H1 H2]. apply nonempty_false in H1. rewrite (AE1 H1), H1. tauto. }
      assert (EQ2 : forall y, (if f_elems f then In y (elems (c_io c)) else In y (arrays (c_io c))) <-> In y (arrays (c_io c))).
      { intros y. destruct (f_elems f); [|tauto]. rewrite andb_true_r in HE. apply orb_false_iff in HE as [HE H3].
        apply orb_false_iff in HE as [H1 H2]. apply nonempty_false in H2. rewrite (AE2 H2), H2. tauto. }
      assert (EQ3 : forall y, (if f_elems f then In y (elems (c_out c)) else In y (arrays (c_out c))) <-> In y (arrays (c_out c))).
      { intros y. destruct (f_elems f); [|tauto]. rewrite andb_true_r in HE. apply orb_false_iff in HE as [HE H3].
        apply nonempty_false in H3. rewrite (AE3 H3), H3. tauto. }
      apply count_length; auto. intros y. rewrite FI, EQ, EQ2, EQ3. cbn [In].
      split; [intros K|intros (s & K1 & K2)].
      * assert (E : In y (leaves (c_in c)) \/ In y (arrays (c_in c)) \/ In y (leaves (c_io c)) \/ In y (arrays (c_io c)) \/ In y (leaves (c_out c)) \/ In y (arrays (c_out c))) by tauto.
        destruct E as [E|[E|[E|[E|[E|E]]]]]; eexists; (split; [|exact E]); tauto.
      * decompose [or] K1; subst; tauto.
  - destruct ((nonempty (elems (c_in c)) || nonempty (elems (c_io c))) && f_elems f) eqn:HE.
    + apply andb_true_iff in HE as [_ FE]. apply count_length; auto. intros y. rewrite FI, FE. cbn [In].
      split; [intros K|intros (s & K1 & K2)].
      * assert (E : In y (leaves (c_in c)) \/ In y (elems (c_in c)) \/ In y (leaves (c_io c)) \/ In y (elems (c_io c))) by intuition congruence.
        destruct E as [E|[E|[E|E]]]; eexists; (split; [|exact E]); tauto.
      * decompose [or] K1; subst; tauto.
    + assert (EQ : forall y, (if f_elems f then In y (elems (c_in c)) else In y (arrays (c_in c))) <-> In y (arrays (c_in c))).
      { intros y. destruct (f_elems f); [|tauto]. rewrite andb_true_r in HE.
        apply orb_false_iff in HE as [H1 H2]. apply nonempty_false in H1. rewrite (AE1 H1), H1. tauto. }
      assert (EQ2 : forall y, (if f_elems f then In y (elems (c_io c)) else In y (arrays (c_io c))) <-> In y (arrays (c_io c))).
      { intros y. destruct (f_elems f); [|tauto]. rewrite andb_true_r in HE.
        apply orb_false_iff in HE as [H1 H2]. apply nonempty_false in H2. rewrite (AE2 H2), H2. tauto. }
      apply count_length; auto. intros y. rewrite FI, EQ, EQ2. cbn [In].
      split; [intros K|intros (s & K1 & K2)].
      * assert (E : In y (leaves (c_in c)) \/ In y (arrays (c_in c)) \/ In y (leaves (c_io c)) \/ In y (arrays (c_io c))) by intuition congruence.
        destruct E as [E|[E|[E|E]]]; eexists; (split; [|exact E]); tauto.
      * decompose [or] K1; subst; tauto.
  - destruct ((nonempty (elems (c_io c)) || nonempty (elems (c_out c))) && f_elems f) eqn:HE.
    + apply andb_true_iff in HE as [_ FE]. apply count_length; auto. intros y. rewrite FI, FE. cbn [In].
      split; [intros K|intros (s & K1 & K2)].
      * assert (E : In y (leaves (c_io c)) \/ In y (elems (c_io c)) \/ In y (leaves (c_out c)) \/ In y (elems (c_out c))) by intuition congruence.
        destruct E as [E|[E|[E|E]]]; eexists; (split; [|exact E]); tauto.
      * decompose [or] K1; subst; tauto.
    + assert (EQ : forall y, (if f_elems f then In y (elems (c_out c)) else In y (arrays (c_out c))) <-> In y (arrays (c_out c))).
      { intros y. destruct (f_elems f); [|tauto]. rewrite andb_true_r in HE.
        apply orb_false_iff in HE as [H1 H2]. apply nonempty_false in H2. rewrite (AE3 H2), H2. tauto. }
      assert (EQ2 : forall y, (if f_elems f then In y (elems (c_io c)) else In y (arrays (c_io c))) <-> In y (arrays (c_io c))).
      { intros y. destruct (f_elems f); [|tauto]. rewrite andb_true_r in HE.
        apply orb_false_iff in HE as [H1 H2]. apply nonempty_false in H1. rewrite (AE2 H1), H1. tauto. }
      apply count_length; auto. intros y. rewrite FI, EQ, EQ2. cbn [In].
      split; [intros K|intros (s & K1 & K2)].
      * assert (E : In y (leaves (c_io c)) \/ In y (arrays (c_io c)) \/ In y (leaves (c_out c)) \/ In y (arrays (c_out c))) by intuition congruence.
        destruct E as [E|[E|[E|E]]]; eexists; (split; [|exact E]); tauto.
      * decompose [or] K1; subst; tauto.
  - unfold filling. now rewrite FIN, FO.
Qed.

Lemma wanted_answer y : wanted y <-> answer el vars f y.
Proof using OK.
  pose proof OK as (CI & CO & CU & _).
  assert (G : forall P s, vs_char el P s -> part s y <-> exists x, P x /\ In y (expand el f x)).
  { intros P s (A & B & C & _). unfold part, expand. rewrite A. split.
    - intros [[H1 H2]|H]; [exists y; rewrite H2; cbn; auto|].
      destruct (f_elems f).
      + apply C in H as (x & H1 & H2). exists x. split; auto. destruct (el x); [destruct H2|exact H2].
      + apply B in H as [H1 H2]. exists y. split; auto. destruct (el y); [contradiction|now left].
    - intros (x & H1 & H2). destruct (el x) as [|e0 er] eqn:E.
      + destruct H2 as [<-|[]]. auto.
      + right. destruct (f_elems f).
        * apply C. exists x. rewrite E. auto.
        * destruct H2 as [<-|[]]. apply B. rewrite E. split; auto. discriminate. }
  unfold wanted, answer, requested. rewrite (G _ _ CI), (G _ _ CO), (G _ _ CU). split.
  - intros [(F & [(x & K1 & K2)|(x & K1 & K2)])|(F & [(x & K1 & K2)|(x & K1 & K2)])]; exists x; auto 8.
  - intros (x & [(F & [K|K])|(F & [K|K])] & K2); eauto 8.
Qed.
End Main.
