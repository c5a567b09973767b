(* PassProofs.v: lemmas about argument lists, conversions, blocks and intents. *)
From Verif Require Import PyStr UnitModel PassModel PassSpec.
From Coq Require Import Lia.
Open Scope nat_scope.
Open Scope list_scope.

(* ---- argument lists ---- *)
Definition filled_from (len : nat) (chunks : list (list str)) : Prop :=
  match chunks with
  | [] => True
  | c :: t => len + width (removelast c) <= 70 /\ (t <> [] -> 70 < len + width c) /\ filled t
  end.
Lemma filled_from_0 chunks : filled_from 0 chunks <-> filled chunks.
Proof. destruct chunks; cbn; tauto. Qed.
Lemma width_cons a l : width (a :: l) = length a + 1 + width l. Proof. reflexivity. Qed.
Lemma join_cons2 sep a b l : join sep (a :: b :: l) = a ++ sep ++ join sep (b :: l). Proof. reflexivity. Qed.

Lemma wrap_chunks (last : str) (args : list str) : args <> [] -> List.last args [] = last -> forall len, exists chunks : list (list str),
  List.concat chunks = args /\ Forall (fun c => c <> []) chunks /\ chunks <> [] /\
  wrap_go last len args = laid_out chunks ++ L "," /\
  (~ In last (removelast args) -> len <= 70 -> filled_from len chunks).
Proof.
  intros NE EL. induction args as [|a t IH]; [congruence|]. intros len.
  destruct t as [|b t].
  - exists [[a]]. cbn in EL. subst last. cbn [wrap_go]. rewrite str_eqb_refl, andb_false_r.
    split; [reflexivity|]. split; [constructor; [discriminate|constructor]|]. split; [discriminate|]. split; [reflexivity|].
    intros _ LE. cbn. split; [lia|]. split; [intros X; now destruct X|exact I].
  - assert (EL' : List.last (b :: t) [] = last) by exact EL.
    specialize (IH ltac:(discriminate) EL').
    remember (b :: t) as bt. cbn [wrap_go]. subst bt.
    destruct ((70 <? len + length a + 1) && negb (str_eqb a last)) eqn:T.
    + destruct (IH 0) as (ch & C & F & NC & W & FL). exists ([a] :: ch).
      rewrite W. apply andb_true_iff in T as [T1 T2]. apply Nat.ltb_lt in T1.
      repeat split.
      * cbn [List.concat]. now rewrite C.
      * constructor; [discriminate|exact F].
      * discriminate.
      * unfold laid_out. destruct ch as [|c ch]; [congruence|]. cbn [map]. rewrite join_cons2.
        unfold continuation, brk. change (join (L ",") [a]) with a. rewrite <- !app_assoc. reflexivity.
      * cbn in *. lia.
      * intros _. rewrite width_cons. cbn. lia.
      * apply filled_from_0. apply FL; [|lia]. intros I. apply H. right. exact I.
    + destruct (IH (len + length a + 1)) as (ch & C & F & NC & W & FL).
      destruct ch as [|c ch]; [congruence|]. exists ((a :: c) :: ch). rewrite W.
      assert (Fc : c <> []) by (now inversion F). assert (F' : Forall (fun c => c <> []) ch) by (now inversion F).
      repeat split.
      * cbn [List.concat] in *. rewrite <- C. reflexivity.
      * constructor; [discriminate|auto].
      * discriminate.
      * unfold laid_out. cbn [map]. destruct c as [|c0 c]; [congruence|].
        change (join (L ",") (a :: c0 :: c)) with (a ++ L "," ++ join (L ",") (c0 :: c)).
        destruct ch as [|d ch]; cbn [map].
        -- cbn [join]. destruct c; rewrite <- ?app_assoc; reflexivity.
        -- rewrite !join_cons2, <- !app_assoc. reflexivity.
      * assert (LE : len + length a + 1 <= 70).
        { apply andb_false_iff in T as [T|T]; [now apply Nat.ltb_ge in T|].
          apply negb_false_iff, str_eqb_eq in T. subst a. exfalso. apply H. left. reflexivity. }
        destruct FL as (F1 & F2 & F3); [intros I; apply H; right; exact I|exact LE|].
        destruct c as [|c0 c]; [congruence|].
        change (removelast (a :: c0 :: c)) with (a :: removelast (c0 :: c)). rewrite width_cons. unfold str in *. lia.
      * assert (LE : len + length a + 1 <= 70).
        { apply andb_false_iff in T as [T|T]; [now apply Nat.ltb_ge in T|].
          apply negb_false_iff, str_eqb_eq in T. subst a. exfalso. apply H. left. reflexivity. }
        destruct FL as (F1 & F2 & F3); [intros I; apply H; right; exact I|exact LE|].
        intros N. specialize (F2 N). rewrite width_cons. lia.
      * assert (LE : len + length a + 1 <= 70).
        { apply andb_false_iff in T as [T|T]; [now apply Nat.ltb_ge in T|].
          apply negb_false_iff, str_eqb_eq in T. subst a. exfalso. apply H. left. reflexivity. }
        destruct FL as (F1 & F2 & F3); [intros I; apply H; right; exact I|exact LE|]. exact F3.
Qed.

(* the text ends like the last argument *)
Lemma join_last sep (l : list str) (x : str) : exists p, join sep (l ++ [x]) = p ++ x.
Proof.
  induction l as [|a l (p & E)]; [exists []; reflexivity|].
  destruct l as [|b l].
  - exists (a ++ sep). cbn. now rewrite <- app_assoc.
  - cbn [app] in *. rewrite join_cons2, E. exists (a ++ sep ++ p). now rewrite <- !app_assoc.
Qed.
Lemma laid_out_last (chunks : list (list str)) (x : str) : chunks <> [] -> Forall (fun c => c <> []) chunks -> List.last (List.concat chunks) [] = x ->
  exists p, laid_out chunks = p ++ x.
Proof.
  intros N F E. destruct (exists_last N) as (ch & c & ->). apply Forall_app in F as [_ F]. inversion F as [|? ? Fc _]; subst.
  destruct (exists_last Fc) as (c' & y & ->).
  rewrite concat_app in *. cbn [List.concat]. rewrite app_nil_r, app_assoc, last_last in *.
  unfold laid_out. rewrite map_app. cbn [map]. destruct (join_last continuation (map (join (L ",")) ch) (join (L ",") (c' ++ [y]))) as (p & ->).
  destruct (join_last (L ",") c' y) as (q & ->). exists (p ++ q). now rewrite app_assoc.
Qed.
Lemma rstrip_comma_one s : (forall p, s <> p ++ L ",") -> s <> [] -> rstrip_comma (s ++ L ",") = s.
Proof.
  intros H N. destruct (exists_last N) as (p & c & ->). unfold rstrip_comma. rewrite !rev_app_distr. cbn [rev app L list_ascii_of_string dropwhile].
  replace (Ascii.eqb "," ",") with true by reflexivity.
  destruct (Ascii.eqb "," c) eqn:E.
  - apply Ascii.eqb_eq in E. subst c. exfalso. now apply (H p).
  - cbn [rev]. now rewrite rev_involutive.
Qed.
(* the last argument is a proper name *)
Definition proper (a : str) : Prop := a <> [] /\ forall p, a <> p ++ L ",".
Lemma app_comma p a q : a <> [] -> p ++ a = q ++ L "," -> exists r, a = r ++ L ",".
Proof.
  intros N E. destruct (exists_last N) as (r & c & ->). rewrite app_assoc in E. change (L ",") with [","%char] in *.
  apply app_inj_tail in E as [_ ->]. now exists r.
Qed.
Lemma wrapped_chunks (args : list str) : args <> [] -> proper (List.last args []) -> exists chunks : list (list str),
  List.concat chunks = args /\ Forall (fun c => c <> []) chunks /\ wrapped args = laid_out chunks /\
  (~ In (List.last args []) (removelast args) -> filled chunks).
Proof.
  intros NE (P1 & P2). destruct (wrap_chunks _ args NE eq_refl 0) as (ch & C & F & NC & W & FL).
  exists ch. split; [exact C|]. split; [exact F|]. split.
  - unfold wrapped. rewrite W. destruct (laid_out_last ch (List.last args []) NC F) as (p & E); [now rewrite C|].
    apply rstrip_comma_one.
    + intros q Eq. rewrite E in Eq. apply app_comma in Eq as (r & R); auto. now apply (P2 r).
    + intros Z. rewrite E in Z. apply app_eq_nil in Z as [_ Z]. now apply P1.
  - intros N. apply filled_from_0, FL; [exact N|lia].
Qed.

(* the list with explicit keywords is the plain list of "a=a" items *)
Lemma keyword_inj a b : keyword_arg a = keyword_arg b -> a = b.
Proof.
  intros E. assert (LE : length a = length b). { apply (f_equal (@length ascii)) in E. unfold keyword_arg in E. rewrite !app_length in E. cbn in E. lia. }
  unfold keyword_arg in E. apply (f_equal (firstn (length a))) in E.
  rewrite firstn_app, firstn_all, Nat.sub_diag, firstn_O, app_nil_r in E.
  rewrite LE, firstn_app, firstn_all, Nat.sub_diag, firstn_O, app_nil_r in E. exact E.
Qed.
Lemma str_eqb_keyword a b : str_eqb (keyword_arg a) (keyword_arg b) = str_eqb a b.
Proof.
  destruct (str_eqb a b) eqn:E.
  - apply str_eqb_eq in E. subst. apply str_eqb_refl.
  - apply str_eqb_neq. apply str_eqb_neq in E. intros H. apply E. now apply keyword_inj.
Qed.
Lemma wrap_explicit_map (last : str) (args : list str) : forall len, wrap_explicit_go last len args = wrap_go (keyword_arg last) len (map keyword_arg args).
Proof.
  induction args as [|a t IH]; intros len; [reflexivity|]. cbn [wrap_explicit_go map wrap_go].
  rewrite str_eqb_keyword. replace (length (keyword_arg a)) with (2 * length a + 1) by (unfold keyword_arg; rewrite !app_length; cbn; lia).
  replace (len + (2 * length a + 1) + 1) with (len + (2 * length a + 2)) by lia.
  rewrite !IH. unfold keyword_arg. rewrite <- !app_assoc. reflexivity.
Qed.
Lemma last_map_kw (args : list str) : args <> [] -> List.last (map keyword_arg args) [] = keyword_arg (List.last args []).
Proof.
  intros N. destruct (exists_last N) as (l & x & ->). rewrite map_app. cbn [map]. now rewrite !last_last.
Qed.

(* the length of lines *)
Lemma substring_split (l1 s l2 a b : str) c : l1 ++ s ++ l2 = a ++ c :: b -> ~ In c s ->
  (exists r, a = l1 ++ s ++ r) \/ (exists p, b = p ++ s ++ l2).
Proof.
  intros E N. revert a E. induction l1 as [|x l1 IH]; intros a E; cbn in E.
  - left. revert a E. induction s as [|y s IHs]; intros a E.
    + exists a. reflexivity.
    + destruct a as [|z a]; cbn in E; injection E as E1 E2.
      * exfalso. apply N. left. exact E1.
      * subst z. destruct (IHs (fun H => N (or_intror H)) a E2) as (r & ->). exists r. reflexivity.
  - destruct a as [|z a]; cbn in E; injection E as E1 E2.
    + right. exists l1. now rewrite <- E2.
    + subst z. destruct (IH a E2) as [(r & ->)|(p & ->)]; [left; exists r; reflexivity|right; now exists p].
Qed.
Lemma lines_bound c n (lines : list str) : Forall (fun l => length l <= n) lines ->
  forall l1 s l2, l1 ++ s ++ l2 = join [c] lines -> ~ In c s -> length s <= n.
Proof.
  induction lines as [|a t IH]; intros F l1 s l2 E N; inversion F; subst.
  - cbn in E. apply app_eq_nil in E as [_ E]. apply app_eq_nil in E as [-> _]. cbn. lia.
  - destruct t as [|b t].
    + cbn in E. apply (f_equal (@length ascii)) in E. rewrite !app_length in E. lia.
    + rewrite join_cons2 in E. cbn [app] in E. apply substring_split in E; auto. destruct E as [(r & ->)|(p & E)].
      * rewrite !app_length in *. lia.
      * symmetry in E. eapply IH; eauto.
Qed.
Fixpoint lines_of (first : bool) (chunks : list (list str)) : list str :=
  match chunks with
  | [] => []
  | [c] => [(if first then [] else List.repeat " "%char 18) ++ join (L ",") c]
  | c :: t => ((if first then [] else List.repeat " "%char 18) ++ join (L ",") c ++ L ", &") :: lines_of false t
  end.
Lemma laid_out_lines (chunks : list (list str)) : forall first : bool,
  (if first then ([] : str) else match chunks with [] => [] | _ => List.repeat " "%char 18 end) ++ laid_out chunks = join [nl] (lines_of first chunks).
Proof.
  induction chunks as [|c t IH]; intros first; [now destruct first|].
  destruct t as [|d t]; [now destruct first|].
  unfold laid_out. cbn [map]. rewrite join_cons2. fold (laid_out (d :: t)). 
  change (lines_of first (c :: d :: t)) with (((if first then [] else List.repeat " "%char 18) ++ join (L ",") c ++ L ", &") :: lines_of false (d :: t)).
  assert (X : lines_of false (d :: t) <> []) by (destruct t; discriminate).
  destruct (lines_of false (d :: t)) as [|e u] eqn:EL; [congruence|]. rewrite join_cons2.
  rewrite <- EL, <- (IH false). unfold continuation.
  change (map (join (L ",")) (d :: t)) with (map (join (L ",")) (d :: t)). unfold laid_out. cbn [map].
  rewrite <- !app_assoc. reflexivity.
Qed.
Lemma join_length c : c <> [] -> length (join (L ",") c) + 1 = width c.
Proof.
  induction c as [|a t IH]; [congruence|]. intros _. destruct t as [|b t]; [cbn; lia|].
  rewrite join_cons2, width_cons, <- IH by discriminate. rewrite !app_length. cbn. lia.
Qed.
Lemma width_last c n : c <> [] -> Forall (fun a => length a <= n) c -> width c <= width (removelast c) + n + 1.
Proof.
  intros N F. destruct (exists_last N) as (l & x & ->). apply Forall_app in F as [_ F]. inversion F; subst.
  rewrite removelast_last. unfold width. rewrite map_app, list_sum_app. cbn. lia.
Qed.
Lemma lines_of_bound n (chunks : list (list str)) : Forall (fun c => c <> []) chunks -> Forall (fun a => length a <= n) (List.concat chunks) -> filled chunks ->
  forall first : bool, Forall (fun l => length l <= 70 + n + 21) (lines_of first chunks).
Proof.
  induction chunks as [|c t IH]; intros F G H first; [constructor|].
  assert (H1 : c <> []) by (now inversion F). assert (H2 : Forall (fun c => c <> []) t) by (now inversion F).
  cbn [List.concat] in G. apply Forall_app in G as [G1 G2]. destruct H as (H4 & H5 & H6).
  pose proof (width_last c n H1 G1). pose proof (join_length c H1).
  destruct t as [|d t].
  - cbn [lines_of]. constructor; [|constructor]. rewrite app_length. destruct first; cbn [length List.repeat]; unfold str in *; lia.
  - change (lines_of first (c :: d :: t)) with (((if first then [] else List.repeat " "%char 18) ++ join (L ",") c ++ L ", &") :: lines_of false (d :: t)).
    constructor; [|apply IH; auto]. rewrite !app_length. destruct first; change (length (L ", &")) with 3; cbn [length List.repeat]; unfold str in *; lia.
Qed.

(* ---- blocks ---- *)
Section Blocks.
Context {A : Type}.
Variables (undef : A) (cin cout : A -> A).
Lemma write_slice_app (done rest b : list A) : length b <= length rest ->
  write_slice A (length done + 1) b (done ++ rest) = (done ++ b) ++ skipn (length b) rest.
Proof.
  intros _. unfold write_slice. replace (length done + 1 - 1) with (length done) by lia.
  rewrite firstn_app, firstn_all, Nat.sub_diag, firstn_O, app_nil_r.
  rewrite skipn_app, skipn_all2 by lia. replace (length done + length b - length done) with (length b) by lia.
  cbn. now rewrite app_assoc.
Qed.
Lemma copy_in_loop_app (blocks : list (list A)) : forall done rest, length (List.concat blocks) <= length rest ->
  copy_in_loop A (length done + 1) blocks (done ++ rest) = done ++ List.concat blocks ++ skipn (length (List.concat blocks)) rest.
Proof.
  induction blocks as [|b t IH]; intros done rest H; cbn [copy_in_loop List.concat]; [reflexivity|].
  cbn [List.concat] in H. rewrite app_length in H.
  rewrite write_slice_app by lia. replace (length done + 1 + length b) with (length (done ++ b) + 1) by (rewrite app_length; lia).
  rewrite IH by (rewrite skipn_length; lia).
  rewrite <- !app_assoc. do 2 f_equal. f_equal. rewrite app_length. clear. revert rest. induction b as [|x b IHb]; intros rest; [reflexivity|].
  destruct rest; cbn; [now rewrite skipn_nil|apply IHb].
Qed.
Lemma copy_in_concat hdim (blocks : list (list A)) : hdim = length (List.concat blocks) ->
  copy_in A undef hdim blocks = List.concat blocks.
Proof.
  intros ->. unfold copy_in. change (copy_in_loop A 1) with (copy_in_loop A (length (@nil A) + 1)).
  change (List.repeat undef (length (List.concat blocks))) with ([] ++ List.repeat undef (length (List.concat blocks))).
  rewrite copy_in_loop_app by (rewrite repeat_length; lia). cbn [app].
  rewrite skipn_all2 by (rewrite repeat_length; lia). apply app_nil_r.
Qed.
Lemma skipn_skipn' (l : list A) a b : skipn b (skipn a l) = skipn (a + b) l.
Proof. revert l; induction a; intros l; [reflexivity|]. destruct l; cbn; [now rewrite skipn_nil|apply IHa]. Qed.
Lemma copy_out_cut sizes : forall ib (tmp : list A), 1 <= ib -> copy_out_loop A ib sizes tmp = cut sizes (skipn (ib - 1) tmp).
Proof.
  induction sizes as [|n t IH]; intros ib tmp H; [reflexivity|]. cbn [copy_out_loop cut]. f_equal.
  rewrite IH by lia. rewrite skipn_skipn'. f_equal. f_equal. lia.
Qed.
Lemma copy_out_is_cut sizes (tmp : list A) : copy_out A sizes tmp = cut sizes tmp.
Proof. unfold copy_out. now rewrite copy_out_cut. Qed.
Lemma cut_concat (blocks : list (list A)) : cut (map (@length A) blocks) (List.concat blocks) = blocks.
Proof.
  induction blocks as [|b t IH]; [reflexivity|]. cbn [map cut List.concat].
  rewrite firstn_app, firstn_all, Nat.sub_diag, firstn_O, app_nil_r. f_equal.
  rewrite skipn_app, skipn_all2 by lia. rewrite Nat.sub_diag. exact IH.
Qed.
Lemma cut_sizes sizes : forall (l : list A), length l = list_sum sizes -> map (@length A) (cut sizes l) = sizes /\ List.concat (cut sizes l) = l.
Proof.
  induction sizes as [|n t IH]; intros l H; [destruct l; [auto|discriminate]|]. change (list_sum (n :: t)) with (n + list_sum t) in H.
  cbn [cut map List.concat]. destruct (IH (skipn n l)) as [H1 H2]; [rewrite skipn_length; lia|].
  rewrite H1, H2, firstn_length. split; [f_equal; lia|apply firstn_skipn].
Qed.
Lemma map_id' (l : list A) : map (fun x => x) l = l. Proof. apply map_id. Qed.
(* one call with the copy back *)
Lemma blocked_call_back hdim (c : bcall A) blocks : hdim = length (List.concat blocks) ->
  b_intent c <> IIn \/ b_differ c = false ->
  blocked_call A undef cin cout true hdim c blocks = ideal_call cin cout c blocks.
Proof.
  intros H D. unfold blocked_call, ideal_call. cbv zeta. rewrite copy_in_concat by exact H. rewrite copy_out_is_cut.
  destruct c as [it df sch]. cbn [b_intent b_differ b_scheme] in *.
  destruct it, df; cbn [act_in act_out intent_eqb negb andb] in *; rewrite ?map_id'; try reflexivity.
  - destruct D; congruence.
  - apply cut_concat.
Qed.
(* without it *)
Lemma blocked_call_no_back hdim (c : bcall A) blocks : blocked_call A undef cin cout false hdim c blocks = blocks.
Proof. reflexivity. Qed.
Lemma concat_len (blocks : list (list A)) : length (List.concat blocks) = list_sum (map (@length A) blocks).
Proof. induction blocks as [|b t IH]; [reflexivity|]. cbn [List.concat map]. rewrite app_length, IH. reflexivity. Qed.
(* the sizes of the blocks do not change if schemes keep the size of the array *)
Lemma ideal_sizes (c : bcall A) blocks : (forall l, length (b_scheme c l) = length l) ->
  map (@length A) (ideal_call cin cout c blocks) = map (@length A) blocks.
Proof.
  intros H. unfold ideal_call. destruct (b_intent c); [reflexivity| |];
    apply cut_sizes; rewrite map_length, H, ?map_length; apply concat_len.
Qed.
End Blocks.

(* ---- intents ---- *)
Definition intent_inv (us : list use) (g : option intent) : Prop :=
  match g with
  | None => us = []
  | Some IIn => us <> [] /\ Forall reads_only us
  | Some IOut => us <> [] /\ Forall writes_only us
  | Some IInout => us <> [] /\ (us = [] \/ ~ Forall reads_only us)
  end.
Lemma group_intent_inv us : well_formed us -> intent_inv us (group_intent us).
Proof.
  unfold group_intent. induction us as [|u us IH] using rev_ind; intros W; [reflexivity|].
  apply Forall_app in W as [W1 W2]. inversion W2 as [|? ? Wu _]; subst. specialize (IH W1).
  rewrite fold_left_app. cbn [fold_left].
  assert (NE : us ++ [u] <> []) by (destruct us; discriminate).
  destruct (fold_left step_intent us None) as [[]|]; cbn [intent_inv] in IH.
  - cbn [step_intent]. destruct IH as [_ IH].
    destruct (u_index u) eqn:E1; cbn [negb andb].
    + split; [exact NE|]. apply Forall_app. split; [exact IH|]. constructor; [|constructor]. now left.
    + destruct (intent_eqb (u_intent u) IIn) eqn:E2; cbn [negb].
      * split; [exact NE|]. apply Forall_app. split; [exact IH|]. constructor; [|constructor]. right. now destruct (u_intent u).
      * split; [exact NE|]. right. intros F. apply Forall_app in F as [_ F]. inversion F as [|? ? Fu _]; subst.
        destruct Fu as [Fu|Fu]; [congruence|]. now rewrite Fu in E2.
  - cbn [step_intent]. destruct IH as [NU IH].
    assert (NR : ~ Forall reads_only (us ++ [u])).
    { intros F. apply Forall_app in F as [F _]. destruct us as [|v us]; [congruence|].
      inversion F; inversion IH; subst. destruct H5 as [Q1 Q2]. destruct H1 as [Q|Q]; congruence. }
    destruct (u_known u) eqn:K.
    + destruct (intent_eqb (u_intent u) IOut) eqn:E2; cbn [negb].
      * split; [exact NE|]. apply Forall_app. split; [exact IH|]. constructor; [split; [auto|now destruct (u_intent u)]|constructor].
      * split; [exact NE|]. now right.
    + replace (if negb (u_index u) && negb (intent_eqb (u_intent u) IOut) then Some IInout else Some IInout) with (Some IInout) by (destruct (negb _ && negb _); reflexivity).
      split; [exact NE|]. now right.
  - cbn [step_intent]. destruct IH as [NU IH]. split; [exact NE|]. right. intros F. apply Forall_app in F as [F _]. destruct IH as [IH|IH]; [congruence|now apply IH].
  - subst us. cbn [step_intent app]. destruct (u_index u) eqn:E1.
    + split; [discriminate|]. constructor; [|constructor]. now left.
    + destruct (u_intent u) eqn:E2; (split; [discriminate|]).
      * constructor; [|constructor]. now right.
      * constructor; [now split|constructor].
      * right. intros F. inversion F as [|? ? Fu _]; subst. destruct Fu; congruence.
Qed.
Lemma suite_intent_spec gs g : suite_intent gs = Some g ->
  (g = IIn <-> Forall (eq IIn) gs) /\ (g = IOut <-> Forall (eq IOut) gs).
Proof.
  unfold suite_intent.
  assert (K : forall l cur, exists r, fold_left merge_intent l (Some cur) = Some r /\
     (r = IIn <-> cur = IIn /\ Forall (eq IIn) l) /\ (r = IOut <-> cur = IOut /\ Forall (eq IOut) l)).
  { induction l as [|x l IH]; intros cur.
    - exists cur. cbn. repeat split; try tauto; constructor.
    - cbn [fold_left].
      destruct cur, x; cbn [merge_intent intent_eqb negb];
        match goal with |- context[fold_left merge_intent l (Some ?c)] => destruct (IH c) as (r & -> & R1 & R2); exists r end;
        (split; [reflexivity|]); rewrite R1, R2, ?Forall_cons_iff; intuition congruence. }
  destruct gs as [|x l]; [discriminate|]. cbn [fold_left merge_intent]. destruct (K l x) as (r & -> & R1 & R2).
  intros E. injection E as <-. rewrite R1, R2, !Forall_cons_iff. intuition congruence.
Qed.
