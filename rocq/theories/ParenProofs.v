From Verif Require Import Regex PhaseModel CheckModel ParenSpec.
Open Scope nat_scope.
Open Scope list_scope.

Lemma visible_length q s : length (visible q s) = length s.
Proof. revert q. induction s as [|c t IH]; intros [d|]; cbn; auto. destruct (is_quote c); cbn; auto. Qed.

(* the loop, on visible text *)
Fixpoint vloop (v : str) (index : nat) (depth : Z) (begin : option nat) : option nat * option nat :=
  match v with
  | [] => (begin, None)
  | c :: t =>
      if Ascii.eqb c "(" then
        let begin' := if Z.eqb depth 0 then Some index else begin in
        if Z.eqb (depth + 1) 0 then (begin', None) else vloop t (S index) (depth + 1)%Z begin'
      else if Ascii.eqb c ")" then
        if Z.eqb (depth - 1) 0 then (begin, Some index) else vloop t (S index) (depth - 1)%Z begin
      else vloop t (S index) depth begin
  end.
Lemma loop_visible s : forall i d q b, (match q with Some c => is_quote c = true | None => True end) ->
  paren_loop s i d q b = vloop (visible q s) i d b.
Proof.
  induction s as [|c t IH]; intros i d q b Q; cbn [paren_loop visible]; [destruct q; reflexivity|].
  fold (is_quote c). destruct (is_quote c) eqn:QC.
  - destruct q as [e|]; cbn [vloop].
    + change (Ascii.eqb " " "(") with false. change (Ascii.eqb " " ")") with false. cbn [negb].
      destruct (Ascii.eqb e c); apply IH; auto.
    + change (Ascii.eqb " " "(") with false. change (Ascii.eqb " " ")") with false. apply IH. auto.
  - destruct q as [e|]; cbn [vloop].
    + change (Ascii.eqb " " "(") with false. change (Ascii.eqb " " ")") with false.
      assert (N : Ascii.eqb e c = false) by (apply Ascii.eqb_neq; intros ->; congruence). rewrite N. apply IH. auto.
    + destruct (Ascii.eqb c "("); cbv zeta.
      * destruct (Z.eqb (d + 1) 0); auto. 
      * destruct (Ascii.eqb c ")"); auto. destruct (Z.eqb (d - 1) 0); auto.
Qed.

(* below depth 0 nothing is ever found *)
Lemma vloop_negative v : forall i d b, (d < 0)%Z -> vloop v i d b = (b, None).
Proof.
  induction v as [|c t IH]; intros i d b D; cbn [vloop]; auto. destruct (Ascii.eqb c "("); cbv zeta.
  - replace (Z.eqb d 0) with false by (symmetry; apply Z.eqb_neq; lia). destruct (Z.eqb (d + 1) 0) eqn:E; auto. apply Z.eqb_neq in E. apply IH. lia.
  - destruct (Ascii.eqb c ")"); [|apply IH; lia]. replace (Z.eqb (d - 1) 0) with false by (symmetry; apply Z.eqb_neq; lia). apply IH. lia.
Qed.
Lemma height_app a b : height (a ++ b) = (height a + height b)%Z.
Proof. induction a as [|c a IH]; cbn [height app]; lia. Qed.

(* inside: depth d > 0, the closing position is the first where d + height = 0 *)
Lemma vloop_inside v : forall i d b, (0 < d)%Z ->
  match vloop v i d b with
  | (b', Some e) => b' = b /\ exists k, e = i + k /\ k < length v /\ (d + height (firstn (S k) v) = 0)%Z /\
      forall j, j < k -> (0 < d + height (firstn (S j) v))%Z
  | (b', None) => b' = b /\ forall j, j < length v -> (0 < d + height (firstn (S j) v))%Z
  end.
Proof.
  induction v as [|c t IH]; intros i d b D; [cbn [vloop length]; split; auto; intros; lia|].
  set (w := (if Ascii.eqb c "(" then 1 else if Ascii.eqb c ")" then -1 else 0)%Z).
  assert (HW : forall j, height (firstn (S (S j)) (c :: t)) = (w + height (firstn (S j) t))%Z) by (intros; reflexivity).
  assert (H0 : height (firstn 1 (c :: t)) = w) by (cbn [firstn height]; fold w; lia).
  assert (ST : vloop (c :: t) i d b = if Z.eqb (d + w) 0 then (b, Some i) else vloop t (S i) (d + w)%Z b).
  { cbn [vloop]. unfold w. destruct (Ascii.eqb c "("); cbv zeta.
    - replace (Z.eqb d 0) with false by (symmetry; apply Z.eqb_neq; lia). replace (Z.eqb (d + 1) 0) with false by (symmetry; apply Z.eqb_neq; lia). auto.
    - destruct (Ascii.eqb c ")"); auto. rewrite Z.add_0_r. replace (Z.eqb d 0) with false by (symmetry; apply Z.eqb_neq; lia). auto. }
  assert (WB : (-1 <= w)%Z) by (unfold w; destruct (Ascii.eqb c "("), (Ascii.eqb c ")"); lia).
  rewrite ST. destruct (Z.eqb (d + w) 0) eqn:Z0.
  - apply Z.eqb_eq in Z0. split; auto. exists 0. split; [lia|]. cbn [length]. split; [lia|]. split; [rewrite H0; lia|]. intros; lia.
  - apply Z.eqb_neq in Z0. assert (D' : (0 < d + w)%Z) by lia. specialize (IH (S i) (d + w)%Z b D').
    destruct (vloop t (S i) (d + w)%Z b) as [b' [e|]].
    + destruct IH as (-> & k & -> & K & KZ & KJ). split; auto. exists (S k). split; [lia|]. cbn [length]. split; [lia|].
      split; [rewrite HW; lia|]. intros [|j] J; [rewrite H0; lia|]. rewrite HW. specialize (KJ j ltac:(lia)). lia.
    + destruct IH as (-> & KJ). split; auto. cbn [length]. intros [|j] J; [rewrite H0; lia|]. rewrite HW. specialize (KJ j ltac:(lia)). lia.
Qed.
(* outside: up to the first parenthesis *)
Lemma vloop_outside v : forall i,
  (exists p r, v = p ++ "("%char :: r /\ forallb (fun c => negb (is_paren c)) p = true /\ vloop v i 0 None = vloop r (i + S (length p)) 1 (Some (i + length p))) \/
  (exists p r, v = p ++ ")"%char :: r /\ forallb (fun c => negb (is_paren c)) p = true /\ vloop v i 0 None = (None, None)) \/
  (forallb (fun c => negb (is_paren c)) v = true /\ vloop v i 0 None = (None, None)).
Proof.
  induction v as [|c t IH]; intros i; [right; right; auto|]. cbn [vloop].
  destruct (Ascii.eqb c "(") eqn:E1.
  - apply Ascii.eqb_eq in E1. subst c. left. exists [], t. cbn [app length forallb]. split; auto. split; auto. cbn [Z.eqb Z.add]. now rewrite Nat.add_1_r, Nat.add_0_r.
  - destruct (Ascii.eqb c ")") eqn:E2.
    + apply Ascii.eqb_eq in E2. subst c. right. left. exists [], t. split; auto. split; auto. cbn. apply vloop_negative. lia.
    + assert (NP : negb (is_paren c) = true) by (unfold is_paren; now rewrite E1, E2).
      destruct (IH (S i)) as [(p & r & -> & F & ->)|[(p & r & -> & F & ->)|(F & ->)]].
      * left. exists (c :: p), r. cbn [app forallb length]. rewrite NP. split; auto. split; auto. now rewrite !Nat.add_succ_r.
      * right. left. exists (c :: p), r. cbn [app forallb]. rewrite NP. auto.
      * right. right. cbn [forallb]. rewrite NP. auto.
Qed.
