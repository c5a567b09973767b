(* Proofs for the host cap (C126-C129). *)
From Coq Require Import List Ascii String Bool Arith ZArith Lia.
Import ListNotations.
From Verif Require Import PyStr ReqModel ReqProofs HcModel HcSpec.
Open Scope string_scope.
Open Scope list_scope.
Open Scope nat_scope.

(* ===== characters ===== *)

Definition sp : ascii := " "%char.
Definition trim (a : str) : str := rev (dropwhile (Ascii.eqb sp) (rev a)).

Lemma drop_split : forall (a : str), exists n, a = List.repeat sp n ++ dropwhile (Ascii.eqb sp) a.
Proof.
  induction a as [|c a IH]; [now exists 0|]. cbn [dropwhile].
  destruct (Ascii.eqb sp c) eqn:E.
  - apply Ascii.eqb_eq in E. subst c. destruct IH as [n IH]. exists (S n). cbn. f_equal. exact IH.
  - now exists 0.
Qed.
Lemma rev_repeat : forall (n : nat), rev (List.repeat sp n) = List.repeat sp n.
Proof.
  induction n as [|n IH]; [reflexivity|]. cbn. rewrite IH. 
  clear. induction n as [|n IH]; [reflexivity|]. cbn. now rewrite IH.
Qed.
Lemma drop_repeat : forall n (a : str), dropwhile (Ascii.eqb sp) (List.repeat sp n ++ a) = dropwhile (Ascii.eqb sp) a.
Proof. induction n as [|n IH]; intros a; [reflexivity|]. cbn. apply IH. Qed.

Lemma blank_eq_spec : forall a b, blank_eq a b = true <-> same a b.
Proof.
  intros a b. unfold blank_eq, same. split.
  - intros H. apply str_eqb_eq in H.
    destruct (drop_split (rev a)) as [i Ea]. destruct (drop_split (rev b)) as [j Eb].
    exists (trim a), i, j. unfold trim, sp in *. split.
    + rewrite <- (rev_involutive a) at 1. rewrite Ea at 1. rewrite rev_app_distr. f_equal. apply rev_repeat.
    + rewrite H. rewrite <- (rev_involutive b) at 1. rewrite Eb at 1. rewrite rev_app_distr. f_equal. apply rev_repeat.
  - intros (x & i & j & -> & ->). rewrite !rev_app_distr.
    change " "%char with sp. rewrite !rev_repeat, !drop_repeat. apply str_eqb_refl.
Qed.
Lemma blank_eq_false : forall a b, blank_eq a b = false <-> ~ same a b.
Proof.
  intros a b. split.
  - intros H S. apply blank_eq_spec in S. congruence.
  - intros H. destruct (blank_eq a b) eqn:E; [|reflexivity]. apply blank_eq_spec in E. contradiction.
Qed.
Lemma same_refl : forall a, same a a.
Proof. intros a. exists a, 0, 0. cbn. now rewrite !app_nil_r. Qed.

(* ===== the parts of a suite ===== *)

Lemma pname_mk : forall s g, pname s (mk_part s g) = fst g.
Proof.
  intros s g. unfold pname, mk_part. cbn [p_name].
  replace (length (s_name s) + 1) with (length (s_name s ++ L "_")) by (rewrite app_length; reflexivity).
  rewrite app_assoc. rewrite skipn_app, skipn_all, Nat.sub_diag. reflexivity.
Qed.
Lemma mk_name_inj : forall s g g', p_name (mk_part s g) = p_name (mk_part s g') -> fst g = fst g'.
Proof. intros s g g' H. rewrite <- (pname_mk s g), <- (pname_mk s g'). unfold pname. now rewrite H. Qed.

Lemma is_run_mk : forall s g, is_run_group s (mk_part s g) = true <-> ~ In (fst g) phase_names.
Proof.
  intros s g. unfold is_run_group. rewrite andb_true_iff, !negb_true_iff, !mem_not.
  split.
  - intros [H1 H2] [E|[E|[E|[E|[E|[]]]]]]; rewrite <- (pname_mk s g) in E;
      rewrite pname_mk in E.
    + apply H1. left. unfold phase_group, mk_part. cbn. now rewrite <- E.
    + apply H1. right. left. unfold phase_group, mk_part. cbn. now rewrite <- E.
    + apply H1. right. right. left. unfold phase_group, mk_part. cbn. now rewrite <- E.
    + apply H2. right. left. unfold phase_group, mk_part. cbn. now rewrite <- E.
    + apply H2. left. unfold phase_group, mk_part. cbn. now rewrite <- E.
  - intros H. split.
    + intros [E|[E|[E|[]]]]; apply H; unfold phase_group in E; apply mk_name_inj in E; cbn in E; rewrite <- E; cbn; tauto.
    + intros [E|[E|[]]]; apply H; unfold phase_group in E; apply mk_name_inj in E; cbn in E; rewrite <- E; cbn; tauto.
Qed.

(* The groups of the suite file with names of their own. *)
Definition own (s : suite) : list (str * (list dummy * list str)) :=
  List.filter (fun g => negb (mem (fst g) phase_names)) (s_groups s).

Lemma in_own : forall s g, In g (own s) <-> In g (s_groups s) /\ ~ In (fst g) phase_names.
Proof.
  intros s g. unfold own. rewrite filter_In, negb_true_iff, mem_not. tauto.
Qed.
Lemma phase_not_run : forall s t, t <> Run -> is_run_group s (phase_group s t) = false.
Proof.
  intros s t Ht. destruct (is_run_group s (phase_group s t)) eqn:E; [|reflexivity].
  unfold phase_group in E. apply is_run_mk in E. exfalso. apply E.
  destruct t; try contradiction; cbn; tauto.
Qed.
Lemma run_groups : forall s, List.filter (is_run_group s) (groups s) = map (mk_part s) (own s).
Proof.
  intros s. unfold groups. rewrite !filter_app. cbn [List.filter].
  rewrite !phase_not_run by discriminate. cbn [app]. rewrite app_nil_r.
  unfold own. induction (s_groups s) as [|g l IH]; [reflexivity|]. cbn [map List.filter].
  destruct (is_run_group s (mk_part s g)) eqn:E.
  - apply is_run_mk in E. rewrite (proj2 (mem_not _ _) E). cbn [negb map]. now f_equal.
  - destruct (mem (fst g) phase_names) eqn:M; cbn [negb]; [exact IH|].
    apply mem_not in M. apply (proj2 (is_run_mk s g)) in M. congruence.
Qed.
Lemma part_list_own : forall s, part_list s = map fst (own s).
Proof.
  intros s. unfold part_list. rewrite run_groups, map_map. apply map_ext. intros g. apply pname_mk.
Qed.

(* ===== the machine ===== *)

Section Machine.
Context {A : Type}.
Variable w : @callee A.
Variable k : nat.
Variable val : cvar -> str.
Notation ex := (exec w k val).

Definition plain (x : line) : bool :=
  match x with LIf _ _ _ => false | LElse => false | LEndIf => false | _ => true end.

Lemma exec_plain : forall fs s x p, plain x = true ->
  ex fs s (x :: p) = if live fs s then match exec1 w k s x with Some s' => ex fs s' p | None => None end
                     else ex fs s p.
Proof. intros fs s x p H. destruct x; try discriminate; reflexivity. Qed.

Definition skips (b : list line) : Prop :=
  forall fs s p, live fs s = false -> ex fs s (b ++ p) = ex fs s p.

Lemma skips_plain : forall b, forallb plain b = true -> skips b.
Proof.
  induction b as [|x b IH]; intros H fs s p Hl; [reflexivity|].
  cbn in H. apply andb_true_iff in H. destruct H as [Hx Hb]. cbn [app].
  rewrite exec_plain by exact Hx. rewrite Hl. now apply IH.
Qed.
Lemma skips_nil : skips [].
Proof. intros fs s p _. reflexivity. Qed.

(* A chain if / else if / ... *)
Fixpoint chain (v : cvar) (els : bool) (l : list (str * list line)) : list line :=
  match l with
  | [] => []
  | (n, b) :: l' => LIf els v n :: b ++ chain v true l'
  end.
Definition closed (v : cvar) (els : bool) (l : list (str * list line)) : list line :=
  chain v els l ++ [LElse; LErr; LEndIf].

Lemma if_first : forall fs s v n p c, live fs s = true ->
  ex fs s (LIf false v n :: p) = ex (mkF true false c false :: fs) s (LIf true v n :: p).
Proof.
  intros fs s v n p c Hl. cbn [exec]. rewrite Hl. cbn [andb orb negb].
  unfold live in Hl. apply andb_true_iff in Hl. destruct Hl as [Hr _]. rewrite Hr, andb_true_r. reflexivity.
Qed.
Lemma chain_first : forall fs s v e l p c, live fs s = true -> l <> [] ->
  ex fs s (chain v false l ++ p) = ex (mkF true false c e :: fs) s (chain v true l ++ p) \/ e = true.
Proof.
  intros fs s v e [|[n b] l] p c Hl Hn; [contradiction|]. destruct e; [now right|left].
  cbn [chain app]. now apply if_first.
Qed.

(* Once a branch has been taken the rest of the construct is skipped. *)
Lemma chain_taken : forall v l o c fs s p,
  Forall (fun nb => skips (snd nb)) l ->
  ex (mkF o true c false :: fs) s (chain v true l ++ LElse :: LErr :: LEndIf :: p) = ex fs s p.
Proof.
  intros v l. induction l as [|[n b] l IH]; intros o c fs s p F.
  - cbn [chain app exec]. unfold live. cbn [f_cur]. rewrite andb_false_r. cbn [andb]. rewrite andb_false_r. reflexivity.
  - inversion F as [|? ? Hb Fl]; subst. cbn [chain app exec]. rewrite <- app_assoc.
    rewrite Hb; [|unfold live; cbn [f_cur]; rewrite andb_false_r; cbn [andb]; now rewrite andb_false_r].
    apply IH. exact Fl.
Qed.

(* The construct is not executed at all. *)
Lemma chain_dead : forall v l tk fs s p c,
  Forall (fun nb => skips (snd nb)) l ->
  ex (mkF false tk c false :: fs) s (chain v true l ++ LElse :: LErr :: LEndIf :: p) = ex fs s p.
Proof.
  intros v l. induction l as [|[n b] l IH]; intros tk fs s p c F.
  - cbn [chain app exec]. unfold live. cbn [f_cur andb]. rewrite andb_false_r. reflexivity.
  - inversion F as [|? ? Hb Fl]; subst. cbn [chain app exec]. rewrite <- app_assoc.
    rewrite Hb; [|unfold live; cbn [f_cur andb]; now rewrite andb_false_r].
    apply IH. exact Fl.
Qed.

Lemma skips_closed : forall v l, l <> [] -> Forall (fun nb => skips (snd nb)) l -> skips (closed v false l).
Proof.
  intros v [|[n b] l] Hn F fs s p Hl; [contradiction|].
  unfold closed. inversion F as [|? ? Hb Fl]; subst. cbn [chain app exec]. rewrite Hl. cbn [andb].
  rewrite <- !app_assoc. cbn [app].
  rewrite Hb; [|unfold live; cbn [f_cur]; now rewrite andb_false_r].
  apply chain_dead. exact Fl.
Qed.

Definition set_err (s : @state A) (e : Z) : state :=
  mkSt e (st_calls s) (st_ret s) (st_loc s) (st_mod s) (st_cnt s) (st_out s).

(* No branch matches: the error is set. *)
Lemma chain_none : forall v l c fs s p,
  Forall (fun nb => skips (snd nb)) l -> st_ret s = false ->
  (forall n b, In (n, b) l -> ~ same (val v) n) ->
  ex (mkF true false c false :: fs) s (chain v true l ++ LElse :: LErr :: LEndIf :: p)
  = ex fs (set_err s 1) p.
Proof.
  intros v l. induction l as [|[n b] l IH]; intros c fs s p F Hr Hn.
  - cbn [chain app exec]. unfold live. cbn [f_cur]. rewrite Hr. reflexivity.
  - inversion F as [|? ? Hb Fl]; subst. cbn [chain app exec].
    assert (E : blank_eq (val v) n = false) by (apply blank_eq_false; apply (Hn n b); now left).
    rewrite E. rewrite <- app_assoc. cbn [orb andb negb].
    rewrite Hb; [|unfold live; cbn [f_cur]; now rewrite andb_false_r].
    apply IH; [exact Fl|exact Hr|]. intros n' b' H. apply (Hn n' b'). now right.
Qed.

(* The first matching branch is executed: its body leads to s', then the rest. *)
Lemma chain_hit : forall v l1 n b l2 c fs s s' p,
  Forall (fun nb => skips (snd nb)) (l1 ++ (n, b) :: l2) -> st_ret s = false ->
  (forall n' b', In (n', b') l1 -> ~ same (val v) n') -> same (val v) n ->
  (forall f q, f_outer f = true -> f_taken f = true -> f_cur f = true -> f_else f = false ->
     exists f', f_outer f' = true /\ f_taken f' = true /\ f_else f' = false /\
       ex (f :: fs) s (b ++ q) = match s' with Some s' => ex (f' :: fs) s' q | None => None end) ->
  ex (mkF true false c false :: fs) s (chain v true (l1 ++ (n, b) :: l2) ++ LElse :: LErr :: LEndIf :: p)
  = match s' with Some s' => ex fs s' p | None => None end.
Proof.
  intros v l1. induction l1 as [|[n1 b1] l1 IH]; intros n b l2 c fs s s' p F Hr Hn Hs Hb.
  - cbn [app chain exec]. rewrite (proj2 (blank_eq_spec _ _) Hs). rewrite Hr. cbn [orb andb negb].
    rewrite <- app_assoc. inversion F as [|? ? _ Fl]; subst.
    destruct (Hb (mkF true true true false) (chain v true l2 ++ LElse :: LErr :: LEndIf :: p) eq_refl eq_refl eq_refl eq_refl) as (f' & Ho & Ht & He & ->).
    destruct s' as [s'|]; [|reflexivity]. destruct f' as [o t cu e]. cbn in Ho, Ht, He. subst o t e.
    apply chain_taken. exact Fl.
  - inversion F as [|? ? Hb1 Fl]; subst. cbn [app chain exec].
    rewrite (proj2 (blank_eq_false _ _) (Hn n1 b1 (or_introl eq_refl))). cbn [orb andb negb].
    rewrite <- app_assoc. rewrite Hb1; [|unfold live; cbn [f_cur]; now rewrite andb_false_r].
    apply IH; [exact Fl|exact Hr| |exact Hs|exact Hb]. intros n' b' H. apply (Hn n' b'). now right.
Qed.

Lemma closed_hit : forall v l1 n b l2 fs s s' p,
  Forall (fun nb => skips (snd nb)) (l1 ++ (n, b) :: l2) -> live fs s = true ->
  (forall n' b', In (n', b') l1 -> ~ same (val v) n') -> same (val v) n ->
  (forall f q, f_outer f = true -> f_taken f = true -> f_cur f = true -> f_else f = false ->
     exists f', f_outer f' = true /\ f_taken f' = true /\ f_else f' = false /\
       ex (f :: fs) s (b ++ q) = match s' with Some s' => ex (f' :: fs) s' q | None => None end) ->
  ex fs s (closed v false (l1 ++ (n, b) :: l2) ++ p) = match s' with Some s' => ex fs s' p | None => None end.
Proof.
  intros v l1 n b l2 fs s s' p F Hl Hn Hs Hb. unfold closed. rewrite <- app_assoc. cbn [app].
  destruct (chain_first fs s v false (l1 ++ (n, b) :: l2) (LElse :: LErr :: LEndIf :: p) true Hl) as [E|E];
    [destruct l1; discriminate| |discriminate].
  rewrite E. unfold live in Hl. apply andb_true_iff in Hl. destruct Hl as [Hr _]. apply negb_true_iff in Hr.
  now apply chain_hit.
Qed.

Lemma closed_none : forall v l fs s p, l <> [] ->
  Forall (fun nb => skips (snd nb)) l -> live fs s = true ->
  (forall n b, In (n, b) l -> ~ same (val v) n) ->
  ex fs s (closed v false l ++ p) = ex fs (set_err s 1) p.
Proof.
  intros v l fs s p Hl F Hv Hn. unfold closed. rewrite <- app_assoc. cbn [app].
  destruct (chain_first fs s v false l (LElse :: LErr :: LEndIf :: p) true Hv Hl) as [E|E]; [|discriminate].
  rewrite E. unfold live in Hv. apply andb_true_iff in Hv. destruct Hv as [Hr _]. apply negb_true_iff in Hr.
  now apply chain_none.
Qed.

(* Executing plain lines one after the other, stopping at a return. *)
Fixpoint steps (s : @state A) (l : list line) : option state :=
  match l with
  | [] => Some s
  | x :: l' => if st_ret s then Some s else match exec1 w k s x with Some s' => steps s' l' | None => None end
  end.
Lemma exec_steps : forall l fs s q, forallb plain l = true ->
  match fs with [] => true | f :: _ => f_cur f end = true -> st_ret s = false ->
  ex fs s (l ++ q) = match steps s l with Some s' => ex fs s' q | None => None end.
Proof.
  induction l as [|x l IH]; intros fs s q H Hf Hr; [reflexivity|].
  cbn in H. apply andb_true_iff in H. destruct H as [Hx Hb]. cbn [app steps].
  rewrite exec_plain by exact Hx. unfold live at 1. rewrite Hf, Hr. cbn [negb andb].
  destruct (exec1 w k s x) as [s'|]; [|reflexivity].
  destruct (st_ret s') eqn:R.
  - assert (Hsk := skips_plain l Hb). rewrite Hsk; [|unfold live; now rewrite R].
    destruct l; cbn [steps]; [reflexivity|now rewrite R].
  - now apply IH.
Qed.
Lemma plain_body : forall b fs s, forallb plain b = true -> st_ret s = false ->
  forall f q, f_outer f = true -> f_taken f = true -> f_cur f = true -> f_else f = false ->
     exists f', f_outer f' = true /\ f_taken f' = true /\ f_else f' = false /\
       ex (f :: fs) s (b ++ q) = match steps s b with Some s' => ex (f' :: fs) s' q | None => None end.
Proof.
  intros b fs s Hb Hr f q Ho Ht Hc He. exists f. repeat split; try assumption.
  apply exec_steps; assumption.
Qed.
End Machine.

(* ===== generated text as chains ===== *)

Lemma bind_inv : forall {T U} (e : res T) (f : T -> res U) r,
  bind e f = Ok r -> exists x, e = Ok x /\ f x = Ok r.
Proof. intros T U [x|m] f r H; cbn in H; [now exists x|discriminate]. Qed.

Lemma suite_chain_shape : forall body ss els r, suite_chain body els ss = Ok r ->
  exists bs, Forall2 (fun s nb => fst nb = s_name s /\ body s = Ok (snd nb)) ss bs /\ r = chain SuiteName els bs.
Proof.
  intros body. induction ss as [|s ss IH]; intros els r H; cbn in H.
  - injection H as <-. exists []. split; [constructor|reflexivity].
  - apply bind_inv in H. destruct H as (b & Hb & H). apply bind_inv in H. destruct H as (r' & Hr & H).
    injection H as <-. destruct (IH _ _ Hr) as (bs & F & ->).
    exists ((s_name s, b) :: bs). split; [constructor; [split; [reflexivity|exact Hb]|exact F]|reflexivity].
Qed.

Lemma run_parts_shape : forall h s l els r, run_parts h s els (map (mk_part s) l) = Ok r ->
  exists bs, Forall2 (fun g nb => fst nb = fst g /\ exists args,
                        suite_part_call_list h (mk_part s g) true false = Ok args /\
                        snd nb = [LCall (s_name s ++ L "_" ++ fst g) args]) l bs
             /\ r = chain SuitePart els bs.
Proof.
  intros h s. induction l as [|g l IH]; intros els r H; cbn [map run_parts] in H.
  - injection H as <-. exists []. split; [constructor|reflexivity].
  - apply bind_inv in H. destruct H as (args & Ha & H). apply bind_inv in H. destruct H as (r' & Hr & H).
    injection H as <-. destruct (IH _ _ Hr) as (bs & F & ->).
    exists ((fst g, [LCall (s_name s ++ L "_" ++ fst g) args]) :: bs). split.
    + constructor; [|exact F]. split; [reflexivity|]. exists args. split; [exact Ha|reflexivity].
    + cbn [chain app]. now rewrite pname_mk.
Qed.

(* Splitting a list matched by Forall2. *)
Lemma F2_split : forall {T U} (R : T -> U -> Prop) b x a l, Forall2 R (b ++ x :: a) l ->
  exists b' x' a', l = b' ++ x' :: a' /\ Forall2 R b b' /\ R x x' /\ Forall2 R a a'.
Proof.
  intros T U R. induction b as [|y b IH]; intros x a l H; cbn in H.
  - inversion H as [|? z ? l' Hx Hl]; subst. exists [], z, l'. repeat split; auto.
  - inversion H as [|? z ? l' Hy Hl]; subst. destruct (IH _ _ _ Hl) as (b' & x' & a' & -> & Fb & Rx & Fa).
    exists (z :: b'), x', a'. repeat split; auto.
Qed.
Lemma F2_in_r : forall {T U} (R : T -> U -> Prop) l l' y, Forall2 R l l' -> In y l' -> exists x, In x l /\ R x y.
Proof.
  intros T U R l l' y F. induction F as [|a b l l' Hab F IH]; intros [].
  - subst b. exists a. split; [now left|exact Hab].
  - destruct (IH H) as (x & Hx & Rx). exists x. split; [now right|exact Rx].
Qed.

(* The body of a suite in a stage is skippable. *)
Lemma plain_concat : forall a ls, forallb plain (List.concat (map (fun v => [LPack a v; LCount v; LDealloc v]) ls)) = true.
Proof. intros a. induction ls as [|v ls IH]; [reflexivity|]. exact IH. Qed.

Lemma reg_plain : forall h ls s b, reg_body h ls s = Ok b -> forallb plain b = true.
Proof.
  intros h ls s b H. unfold reg_body in H. apply bind_inv in H. destruct H as (args & _ & H).
  injection H as <-. cbn [forallb plain andb]. rewrite forallb_app, plain_concat. destruct ls; reflexivity.
Qed.
Lemma own_nonempty : forall s, has_part s -> own s <> [].
Proof. intros s (g & Hg & Hn) E. assert (I : In g (own s)) by (apply in_own; auto). rewrite E in I. destruct I. Qed.

Lemma body_shape : forall h ls s b, suite_body h ls Run s = Ok b ->
  exists bs, Forall2 (fun g nb => fst nb = fst g /\ exists args,
                        suite_part_call_list h (mk_part s g) true false = Ok args /\
                        snd nb = [LCall (s_name s ++ L "_" ++ fst g) args]) (own s) bs
             /\ b = closed SuitePart false bs.
Proof.
  intros h ls s b H. unfold suite_body in H. apply bind_inv in H. destruct H as (r & Hr & H).
  injection H as <-. unfold suite_part_list in Hr. rewrite run_groups in Hr.
  apply run_parts_shape in Hr. destruct Hr as (bs & F & ->). exists bs. split; [exact F|reflexivity].
Qed.

Lemma parts_skip : forall {A} (w : @callee A) k val h s bs,
  Forall2 (fun g nb => fst nb = fst g /\ exists args,
                        suite_part_call_list h (mk_part s g) true false = Ok args /\
                        snd nb = [LCall (s_name s ++ L "_" ++ fst g) args]) (own s) bs ->
  Forall (fun nb => skips w k val (snd nb)) bs.
Proof.
  intros A w k val h s bs F. induction F as [|g nb l l' (E & args & Ha & Hb) F IH]; constructor; [|exact IH].
  rewrite Hb. now apply skips_plain.
Qed.

Lemma body_skips : forall {A} (w : @callee A) k val h ls t s b,
  (t = Run -> has_part s) -> suite_body h ls t s = Ok b -> skips w k val b.
Proof.
  intros A w k val h ls t s b Hp H. destruct t.
  - apply skips_plain. now apply reg_plain in H.
  - unfold suite_body in H. apply bind_inv in H. destruct H as (r & Hr & H). injection H as <-. now apply skips_plain.
  - unfold suite_body in H. apply bind_inv in H. destruct H as (r & Hr & H). injection H as <-. now apply skips_plain.
  - apply body_shape in H. destruct H as (bs & F & ->). apply skips_closed; [|now apply (parts_skip w k val h s)].
    intros E. subst bs. apply (own_nonempty s (Hp eq_refl)). now inversion F.
  - unfold suite_body in H. apply bind_inv in H. destruct H as (r & Hr & H). injection H as <-. now apply skips_plain.
  - unfold suite_body in H. apply bind_inv in H. destruct H as (r & Hr & H). injection H as <-. now apply skips_plain.
Qed.

Lemma bodies_skip : forall {A} (w : @callee A) k val h ls t ss bs,
  (t = Run -> forall s, In s ss -> has_part s) ->
  Forall2 (fun s nb => fst nb = s_name s /\ suite_body h ls t s = Ok (snd nb)) ss bs ->
  Forall (fun nb => skips w k val (snd nb)) bs.
Proof.
  intros A w k val h ls t ss bs Hp F. induction F as [|s nb l l' (E & Hb) F IH]; constructor.
  - apply (body_skips w k val h ls t s); [|exact Hb]. intros Ht. apply Hp; [exact Ht|now left].
  - apply IH. intros Ht s' Hs. apply Hp; [exact Ht|now right].
Qed.

(* ===== running a whole stage ===== *)

Definition cleared {A} (s : @state A) : @state A := set_err s 0.

Lemma stage_hit : forall {A} (w : @callee A) k val h ss t lines s sn st s' b locals,
  stage_lines h ss t = Ok lines -> host_locals h t ss = Ok locals ->
  (t = Run -> forall s, In s ss -> has_part s) ->
  val SuiteName = sn -> chosen_suite ss sn s -> st_ret st = false ->
  suite_body h (map snd locals) t s = Ok b ->
  (forall f q, f_outer f = true -> f_taken f = true -> f_cur f = true -> f_else f = false ->
     exists f', f_outer f' = true /\ f_taken f' = true /\ f_else f' = false /\
       exec w k val [f] (cleared st) (b ++ q) = match s' with Some s' => exec w k val [f'] s' q | None => None end) ->
  exec w k val [] st lines = s'.
Proof.
  intros A w k val h ss t lines s sn st s' b locals H Hl Hp Hv (bf & af & -> & Hs & Hn) Hr Hb Hx.
  unfold stage_lines in H. rewrite Hl in H. cbn [bind] in H. apply bind_inv in H. destruct H as (r & H & E).
  injection E as <-. apply suite_chain_shape in H. destruct H as (bs & F & ->).
  assert (Sk := bodies_skip w k val h _ t _ bs Hp F).
  destruct (F2_split _ _ _ _ _ F) as (b1 & [n b'] & b2 & -> & F1 & (En & Eb) & F2).
  cbn [fst snd] in En, Eb. rewrite Hb in Eb. injection Eb as <-. subst n.
  rewrite exec_plain by reflexivity. unfold live. rewrite Hr. cbn [negb andb exec1].
  change (mkSt 0 (st_calls st) (st_ret st) (st_loc st) (st_mod st) (st_cnt st) (st_out st)) with (cleared st).
  change (chain SuiteName false (b1 ++ (s_name s, b) :: b2) ++ [LElse; LErr; LEndIf])
    with (closed SuiteName false (b1 ++ (s_name s, b) :: b2)).
  rewrite <- (app_nil_r (closed _ _ _)).
  rewrite (closed_hit w k val SuiteName b1 (s_name s) b b2 [] (cleared st) s' []); [destruct s'; reflexivity|exact Sk| | | |exact Hx].
  - unfold live. cbn. now rewrite Hr.
  - intros n' b' Hin Sm. destruct (F2_in_r _ _ _ _ F1 Hin) as (s0 & Hs0 & En & _). cbn in En. subst n'.
    apply (Hn s0 Hs0). now rewrite <- Hv.
  - now rewrite Hv.
Qed.

Lemma stage_miss : forall {A} (w : @callee A) k val h ss t lines st,
  stage_lines h ss t = Ok lines -> ss <> [] ->
  (t = Run -> forall s, In s ss -> has_part s) ->
  (forall s, In s ss -> ~ same (val SuiteName) (s_name s)) -> st_ret st = false ->
  exec w k val [] st lines = Some (set_err st 1).
Proof.
  intros A w k val h ss t lines st H Hss Hp Hn Hr. unfold stage_lines in H.
  apply bind_inv in H. destruct H as (locals & _ & H). apply bind_inv in H. destruct H as (r & H & E).
  injection E as <-. apply suite_chain_shape in H. destruct H as (bs & F & ->).
  assert (Sk := bodies_skip w k val h _ t _ bs Hp F).
  rewrite exec_plain by reflexivity. unfold live. rewrite Hr. cbn [negb andb exec1].
  change (chain SuiteName false bs ++ [LElse; LErr; LEndIf]) with (closed SuiteName false bs).
  rewrite <- (app_nil_r (closed _ _ _)).
  rewrite closed_none; [reflexivity| |exact Sk| |].
  - intros E. subst bs. inversion F. subst ss. contradiction.
  - unfold live. cbn. now rewrite Hr.
  - intros n b Hin. destruct (F2_in_r _ _ _ _ F Hin) as (s0 & Hs0 & En & _). cbn in En. subst n. now apply Hn.
Qed.

(* The body of the suite in the run stage. *)
Lemma run_body_hit : forall {A} (w : @callee A) k val h ls s b st g fs,
  suite_body h ls Run s = Ok b -> chosen_group s (val SuitePart) g -> live fs st = true ->
  exists args, suite_part_call_list h (mk_part s g) true false = Ok args /\
  forall p, exec w k val fs st (b ++ p)
            = exec w k val fs (do_call w (s_name s ++ L "_" ++ fst g) args st) p.
Proof.
  intros A w k val h ls s b st g fs H (bf & af & Eg & (Hng & Hs) & Hn) Hl.
  apply body_shape in H. destruct H as (bs & F & ->).
  assert (Sk := parts_skip w k val h s bs F).
  assert (Eo : own s = List.filter (fun g => negb (mem (fst g) phase_names)) bf
                        ++ g :: List.filter (fun g => negb (mem (fst g) phase_names)) af).
  { unfold own. rewrite Eg, filter_app. cbn [List.filter]. now rewrite (proj2 (mem_not _ _) Hng). }
  rewrite Eo in F. destruct (F2_split _ _ _ _ _ F) as (b1 & [n b'] & b2 & -> & F1 & (En & args & Ha & Eb) & F2).
  cbn [fst snd] in En, Eb. subst n b'. exists args. split; [exact Ha|]. intros p.
  rewrite (closed_hit w k val SuitePart b1 (fst g) _ b2 fs st
             (Some (do_call w (s_name s ++ L "_" ++ fst g) args st)) p); [reflexivity|exact Sk|exact Hl| |exact Hs|].
  - intros n' b' Hin Sm. destruct (F2_in_r _ _ _ _ F1 Hin) as (g0 & Hg0 & En & _). cbn in En. subst n'.
    apply filter_In in Hg0. destruct Hg0 as [Hg0 Hm]. apply negb_true_iff, mem_not in Hm.
    apply (Hn g0 Hg0). split; assumption.
  - intros f q Ho Ht Hc He. exists f. repeat split; try assumption.
    cbn [app]. rewrite exec_plain by reflexivity. unfold live in Hl |- *. rewrite Hc.
    apply andb_true_iff in Hl. destruct Hl as [Hr _]. rewrite Hr. reflexivity.
Qed.

Lemma run_body_miss : forall {A} (w : @callee A) k val h ls s b st fs,
  suite_body h ls Run s = Ok b -> has_part s -> live fs st = true ->
  (forall g, In g (s_groups s) -> ~ In (fst g) phase_names -> ~ same (val SuitePart) (fst g)) ->
  forall p, exec w k val fs st (b ++ p) = exec w k val fs (set_err st 1) p.
Proof.
  intros A w k val h ls s b st fs H Hp Hl Hn p.
  apply body_shape in H. destruct H as (bs & F & ->).
  assert (Sk := parts_skip w k val h s bs F).
  rewrite closed_none; [reflexivity| |exact Sk|exact Hl|].
  - intros E. subst bs. apply (own_nonempty s Hp). now inversion F.
  - intros n b Hin. destruct (F2_in_r _ _ _ _ F Hin) as (g0 & Hg0 & En & _). cbn in En. subst n.
    apply in_own in Hg0. destruct Hg0 as [Hg0 Hm]. now apply Hn.
Qed.

Lemma stage_body : forall h ss t lines s sn, stage_lines h ss t = Ok lines -> chosen_suite ss sn s ->
  exists locals b, host_locals h t ss = Ok locals /\ suite_body h (map snd locals) t s = Ok b.
Proof.
  intros h ss t lines s sn H (bf & af & -> & _ & _). unfold stage_lines in H.
  apply bind_inv in H. destruct H as (locals & Hl & H). apply bind_inv in H. destruct H as (r & H & E).
  apply suite_chain_shape in H. destruct H as (bs & F & _).
  destruct (F2_split _ _ _ _ _ F) as (b1 & [n b'] & b2 & -> & F1 & (En & Eb) & F2).
  exists locals, b'. split; assumption.
Qed.
