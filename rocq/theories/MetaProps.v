(* MetaProps.v: C40 (property lines), C72 (continuation lines and the error limit). *)
From Verif Require Import PyStr Regex PhaseModel PhaseSpec CheckModel CheckSpec CheckProofs CheckProps ReqModel ReqProofs MetaModel MetaSpec MetaProofs.
From Coq Require Import Lia.
Open Scope nat_scope.
Open Scope list_scope.

(* ---- C40: property lines ---- *)
(* A comment or empty line sets nothing; any other line is cut at "|" and each piece at
   its first "=", so that the pieces put together again are the line. *)
Theorem C40_pieces : forall l items,
  parse_config_line l = Ok items <-> (blank_line l /\ items = []) \/ (~ blank_line l /\ pieces (strip l) items).
Proof. exact config_spec. Qed.
Print Assumptions C40_pieces.
Example C40_pieces_ok :
  parse_config_line (L " units = m s-1 | note = a = b ") = Ok [(L "units ", L " m s-1 "); (L " note ", L " a = b")].
Proof. reflexivity. Qed.
Example C40_comment_ok : blank_line (L "  # units = m") /\ parse_config_line (L "  # units = m") = Ok [].
Proof. split; [right; exists (L "  "), "#"%char, (L " units = m"); split; [reflexivity|]; split; [intros c [<-|[<-|[]]]; reflexivity|auto]|reflexivity]. Qed.

(* It is refused exactly when a piece has no "=". *)
Lemma split_props_raise l : (exists m, split_props l = Raise m) <-> exists p, In p l /\ ~ In "="%char p.
Proof.
  induction l as [|p l IH]; cbn [split_props].
  - split; [intros (m & H); discriminate|intros (p & [] & _)].
  - destruct (split_eq p) as [[k v]|] eqn:S.
    + apply split_eq_some in S as [-> _]. destruct (split_props l) as [r|m]; cbn.
      * split; [intros (m & H); discriminate|]. intros (q & [<-|I] & N).
        -- exfalso. apply N. apply in_app_iff. right. now left.
        -- destruct IH as [_ IH]. destruct IH as (m & H); [eauto|discriminate].
      * split; [|eauto]. intros _. destruct IH as [IH _]. destruct IH as (q & I & N); [eauto|]. exists q. split; [now right|auto].
    + apply split_eq_none in S. split; [intros _; exists p; split; [now left|auto]|eauto].
Qed.
Theorem C40_refused : forall l,
  (exists m, parse_config_line l = Raise m) <->
  ~ blank_line l /\ exists a p b, strip l = join (L "|") (a ++ p :: b) /\ (forall x, In x (a ++ p :: b) -> ~ In "|"%char x) /\ ~ In "="%char p.
Proof.
  intros l. unfold parse_config_line. destruct (blank_metadata_line l) eqn:B.
  - apply blank_spec in B. split; [intros (m & H); discriminate|]. intros [N _]. contradiction.
  - apply blank_false in B. rewrite split_props_raise. split.
    + intros (p & I & N). split; auto. apply in_split in I as (a & b & E). exists a, p, b. rewrite <- E. split; [symmetry; apply (join_split "|")|]. split; auto.
      intros x. apply split_on_no_sep.
    + intros (_ & a & p & b & E & H & N). exists p. split; auto. rewrite E. rewrite (split_join "|"); auto; [apply in_app_iff; right; now left|destruct a; discriminate].
Qed.
Print Assumptions C40_refused.
Example C40_refused_ok : exists m, parse_config_line (L "units = m | kind") = Raise m.
Proof. eexists. reflexivity. Qed.
(* values keep their "=" *)
Theorem C40_value_kept : forall k v, ~ In "="%char k -> ~ In "|"%char k -> ~ In "|"%char v -> ~ blank_line (k ++ L "=" ++ v) -> strip (k ++ L "=" ++ v) = k ++ L "=" ++ v ->
  parse_config_line (k ++ L "=" ++ v) = Ok [(k, v)].
Proof.
  intros k v H1 H2 H3 N S. apply C40_pieces. right. split; auto. unfold pieces. split; [discriminate|]. split; [exact S|]. intros a b [[= <- <-]|[]]. auto.
Qed.
Print Assumptions C40_value_kept.
Example C40_value_kept_ok : parse_config_line (L "kind=len=*") = Ok [(L "kind", L "len=*")].
Proof. reflexivity. Qed.

(* ---- C72: continuation lines ---- *)
(* what the object yields: the line at the start, then one call of next_line each *)
Fixpoint nth_line (o : pobj) (k : nat) : option str * pobj :=
  match k with 0 => curr_line o | S k => next_line (snd (nth_line o k)) end.

Fixpoint take_group (ls : list str) : option (str * nat) :=
  match ls with
  | [] => None
  | l :: r => if continued (rstrip l) then
                match take_group r with None => Some (removelast (rstrip l), 1) | Some (t, k) => Some (removelast (rstrip l) ++ t, S k) end
              else Some (rstrip l, 1)
  end.
Lemma nth_skipn {A} (l : list A) n : nth_error l n = hd_error (skipn n l).
Proof. revert n. induction l; intros [|n]; cbn; auto. Qed.
Lemma skipn_S {A} (l : list A) n x r : skipn n l = x :: r -> skipn (S n) l = r.
Proof. revert n. induction l as [|a l IH]; intros [|n] H; cbn in *; try discriminate; [now injection H|]. now apply IH. Qed.
Lemma skipn_add {A} (l : list A) n k : skipn k (skipn n l) = skipn (n + k) l.
Proof. revert n. induction l as [|a l IH]; intros [|n]; cbn; auto. now destruct k. Qed.
Lemma curr_line_group fuel o : length (po_lines o) - po_num o <= fuel ->
  curr_line_f fuel o = match take_group (skipn (po_num o) (po_lines o)) with
                       | None => (None, o)
                       | Some (t, k) => (Some t, po_at o (po_num o) (po_num o + k))
                       end.
Proof.
  revert o. induction fuel as [|f IH]; intros o H.
  - rewrite skipn_all2 by lia. cbn. rewrite nth_skipn, skipn_all2 by lia. reflexivity.
  - cbn [curr_line_f]. rewrite nth_skipn. destruct (skipn (po_num o) (po_lines o)) as [|raw r] eqn:S; cbn [hd_error take_group]; auto.
    destruct (continued (rstrip raw)) eqn:C.
    + set (o' := po_at (po_at o (po_num o) (Datatypes.S (po_num o))) _ _). cbn [po_next po_at] in o'.
      rewrite IH by (cbn; lia). cbn [po_num po_lines po_at o']. rewrite (skipn_S _ _ _ _ S).
      destruct (take_group r) as [[t k]|]; cbn.
      * unfold po_at. cbn. do 2 f_equal. lia.
      * rewrite app_nil_r. unfold po_at. cbn. do 2 f_equal. lia.
    + cbn. unfold po_at. do 2 f_equal. lia.
Qed.
Lemma continued_spec l : continued l = true <-> exists t, l = t ++ ["092"%char].
Proof.
  unfold continued. destruct (rev l) as [|c r] eqn:R.
  - split; [discriminate|]. intros (t & ->). rewrite rev_app_distr in R. discriminate.
  - assert (E : l = rev r ++ [c]) by (rewrite <- (rev_involutive l), R; reflexivity). rewrite Ascii.eqb_eq. split.
    + intros ->. eauto.
    + intros (t & E'). rewrite E in E'. apply app_inj_tail in E' as [_ ->]. reflexivity.
Qed.
Lemma continued_ends l : continued (rstrip l) = true <-> ends_bs l. Proof. apply continued_spec. Qed.
Lemma line_text_fun l t : line_text l t -> t = if continued (rstrip l) then removelast (rstrip l) else rstrip l.
Proof.
  intros [E|[N ->]].
  - assert (C : continued (rstrip l) = true) by (apply continued_spec; eauto). rewrite C, E. symmetry. apply removelast_snoc.
  - destruct (continued (rstrip l)) eqn:C; auto. apply continued_ends in C. contradiction.
Qed.
Lemma take_group_spec a z rest ts : (forall l, In l a -> ends_bs l) -> (rest <> [] -> ~ ends_bs z) -> Forall2 line_text (a ++ [z]) ts ->
  take_group ((a ++ [z]) ++ rest) = Some (List.concat ts, length (a ++ [z])).
Proof.
  revert ts. induction a as [|l a IH]; intros ts A Z F; cbn [app take_group].
  - inversion F as [|? t ? ? T F']; subst. inversion F'; subst. pose proof (line_text_fun _ _ T) as E. cbn. rewrite app_nil_r.
    destruct (continued (rstrip z)) eqn:C; [|now subst].
    destruct rest as [|x rest]; [cbn; now subst|]. exfalso. apply Z; [discriminate|]. now apply continued_ends.
  - inversion F as [|? t ? ts' T F']; subst. pose proof (line_text_fun _ _ T) as E.
    assert (C : continued (rstrip l) = true) by (apply continued_ends; apply A; now left). rewrite C in *.
    rewrite (IH ts'); auto. + cbn. now subst. + intros x X. apply A. now right.
Qed.
Lemma groups_tail g gs raw : line_groups raw (g :: gs) -> line_groups (List.concat gs) gs.
Proof.
  intros (-> & F & B). split; auto. split; [now inversion F|]. intros a g' b z -> N. apply (B (g :: a) g' b z); auto.
Qed.
Lemma first_group raw g gs t : line_groups raw (g :: gs) -> group_text g t -> take_group raw = Some (t, length g).
Proof.
  intros (-> & F & B) (ts & T & ->). inversion F as [|? ? (a & z & -> & A) _]; subst. apply take_group_spec; auto.
  intros N. apply (B [] a gs z); auto. intros ->. now apply N.
Qed.
Theorem C72_lines : forall raw start gs texts k, line_groups (skipn start raw) gs -> Forall2 group_text gs texts ->
  let '(l, o) := nth_line (po_new raw start) k in
  l = nth_error texts k /\ po_num o = start + length (List.concat (firstn k gs)) /\ fst (curr_line o) = l.
Proof.
  intros raw start gs texts k G T.
  assert (X : exists o, nth_line (po_new raw start) k = (nth_error texts k, o) /\ po_lines o = raw /\
     po_num o = start + length (List.concat (firstn k gs)) /\ (po_next o = start + length (List.concat (firstn (S k) gs)))).
  { assert (RD : forall o k, po_lines o = raw -> po_num o = start + length (List.concat (firstn k gs)) -> po_next o = po_num o ->
        exists o', curr_line o = (nth_error texts k, o') /\ po_lines o' = raw /\ po_num o' = po_num o /\ po_next o' = start + length (List.concat (firstn (S k) gs))).
    { intros o j E1 E2 E3. unfold curr_line. rewrite curr_line_group by lia. rewrite E1, E2, <- skipn_add.
      set (N := skipn start raw) in *. clearbody N. clear k.
      assert (Q : forall j gs texts, line_groups N gs -> Forall2 group_text gs texts ->
        take_group (skipn (length (List.concat (firstn j gs))) N) = match nth_error gs j, nth_error texts j with Some g, Some t => Some (t, length g) | _, _ => None end /\
        (nth_error gs j = None <-> nth_error texts j = None) /\
        length (List.concat (firstn (S j) gs)) = length (List.concat (firstn j gs)) + match nth_error gs j with Some g => length g | None => 0 end).
      { clear. intros j. revert N. induction j as [|j IH]; intros N gs texts G T.
        - cbn [firstn List.concat length]. rewrite skipn_O. destruct T as [|g t gs texts T1 T2]; cbn.
          + destruct G as (-> & _). cbn. split; auto. split; [tauto|lia].
          + rewrite (first_group _ _ _ _ G T1). split; auto. split; [split; discriminate|]. rewrite app_nil_r. lia.
        - destruct T as [|g t gs texts T1 T2].
          + destruct G as (-> & _). cbn. split; [reflexivity|]. split; [tauto|lia].
          + pose proof (groups_tail _ _ _ G) as G'. destruct (IH _ _ _ G' T2) as (A & B & C). destruct G as (-> & _).
            cbn [nth_error]. split; [|split; auto].
            * change (firstn (S j) (g :: gs)) with (g :: firstn j gs). cbn [List.concat]. rewrite app_length, <- skipn_add. cbn [List.concat]. rewrite skipn_app, skipn_all, Nat.sub_diag. cbn [app]. rewrite skipn_O. exact A.
            * change (firstn (S (S j)) (g :: gs)) with (g :: firstn (S j) gs). change (firstn (S j) (g :: gs)) with (g :: firstn j gs). cbn [List.concat]. rewrite !app_length, C. lia. }
      destruct (Q j gs texts G T) as (A & B & C). rewrite A. destruct (nth_error gs j) as [g|], (nth_error texts j) as [t|].
      - eexists. split; [reflexivity|]. cbn [po_at po_lines po_num po_next]. split; auto. split; [lia|]. rewrite C. lia.
      - destruct B as [_ B]. discriminate B; auto.
      - destruct B as [B _]. discriminate B; auto.
      - exists o. split; auto. split; auto. split; [lia|]. rewrite C. lia. }
    induction k as [|k (o & E & L1 & L2 & L3)].
    - cbn [nth_line]. destruct (RD (po_new raw start) 0) as (o' & E & L1 & L2 & L3); cbn; auto. exists o'. split; auto. split; auto. split; auto. rewrite L2. cbn. lia.
    - cbn [nth_line]. rewrite E. cbn [snd]. unfold next_line. destruct (RD (po_at o (po_next o) (po_next o)) (S k)) as (o' & E' & M1 & M2 & M3); auto.
      exists o'. split; auto. split; auto. split; auto. now rewrite M2. }
  destruct X as (o & E & L1 & L2 & L3). rewrite E. split; auto. split; auto.
  destruct k as [|k]; cbn [nth_line] in E.
  - revert E. unfold curr_line. intros E. rewrite curr_line_group in E by lia. rewrite curr_line_group by lia.
    destruct (take_group (skipn (po_num (po_new raw start)) (po_lines (po_new raw start)))) as [[t j]|] eqn:K; injection E as E <-; cbn in *; now rewrite K, <- E.
  - destruct (nth_line (po_new raw start) k) as [l1 o1]. cbn [snd] in E. revert E. unfold next_line, curr_line. intros E. rewrite curr_line_group in E by lia. rewrite curr_line_group by lia.
    cbn [po_at po_lines po_num] in E. destruct (take_group (skipn (po_next o1) (po_lines o1))) as [[t j]|] eqn:K; injection E as E <-; cbn in *; now rewrite K, <- E.
Qed.
Print Assumptions C72_lines.
Example C72_lines_ok :
  line_groups (skipn 1 [L "x"; L "## hi \  "; L "there \"; L "mom"; L "end \"]) [[L "## hi \  "; L "there \"; L "mom"]; [L "end \"]] /\
  Forall2 group_text [[L "## hi \  "; L "there \"; L "mom"]; [L "end \"]] [L "## hi there mom"; L "end "].
Proof.
  assert (B1 : ends_bs (L "## hi \  ")) by (exists (L "## hi "); reflexivity).
  assert (B2 : ends_bs (L "there \")) by (exists (L "there "); reflexivity).
  assert (B3 : ~ ends_bs (L "mom")) by (intros (t & H); apply (f_equal (fun x => last x "x"%char)) in H; rewrite last_last in H; discriminate).
  split.
  - split; [reflexivity|]. split.
    + constructor; [|constructor; [|constructor]].
      * exists [L "## hi \  "; L "there \"], (L "mom"). split; auto. intros l [<-|[<-|[]]]; auto.
      * exists [], (L "end \"). split; auto. intros l [].
    + intros a g b z E N. destruct a as [|x [|y [|w a]]].
      * pose proof (f_equal (fun x => last (hd [] x) []) E) as Q. cbn [app hd] in Q. rewrite last_last in Q. rewrite <- Q. exact B3.
      * injection E as _ E E2. subst b. congruence.
      * injection E as _ E. discriminate.
      * discriminate.
  - constructor; [|constructor; [|constructor]].
    + exists [L "## hi "; L "there "; L "mom"]. split; [|reflexivity]. constructor; [left; reflexivity|]. constructor; [left; reflexivity|]. constructor; [right; split; [exact B3|reflexivity]|constructor].
    + exists [L "end "]. split; [|reflexivity]. constructor; [left; reflexivity|constructor].
Qed.
(* ... and every file has such groups *)
Theorem C72_groups_exist : forall raw, exists gs texts, line_groups raw gs /\ Forall2 group_text gs texts.
Proof.
  assert (LT : forall l, exists t, line_text l t).
  { intros l. destruct (continued (rstrip l)) eqn:C.
    - apply continued_spec in C as (t & E). exists t. now left.
    - exists (rstrip l). right. split; auto. intros H. apply continued_ends in H. congruence. }
  assert (GT : forall g, exists t, group_text g t).
  { intros g. assert (exists ts, Forall2 line_text g ts) as (ts & F).
    { induction g as [|l g (ts & F)]; [exists []; constructor|]. destruct (LT l) as (t & T). exists (t :: ts). now constructor. }
    exists (List.concat ts), ts. auto. }
  intros raw. assert (exists gs, line_groups raw gs) as (gs & G).
  { induction raw as [|l raw (gs & G)].
    - exists []. split; auto. split; [constructor|]. intros a g b z E. destruct a; discriminate.
    - destruct gs as [|g gs].
      + destruct G as (-> & _). exists [[l]]. split; auto. split; [repeat constructor; exists [], l; split; auto; intros ? []|].
        intros a g b z E N. destruct a as [|x [|y a]]; try discriminate. injection E as _ E. congruence.
      + destruct (continued (rstrip l)) eqn:C.
        * apply continued_ends in C. exists ((l :: g) :: gs). destruct G as (-> & F & B). split; [reflexivity|]. split.
          -- inversion F as [|? ? (a & z & -> & A) F']; subst. constructor; auto. exists (l :: a), z. split; auto. intros x [<-|I]; auto.
          -- intros a g' b z E N. destruct a as [|x a].
             ++ injection E as E <-. destruct g' as [|y g']; [cbn in E; injection E as _ E; inversion F as [|? ? (a & z' & -> & _) _]; subst; destruct a; discriminate|].
                injection E as _ E. apply (B [] g' gs z); auto. now rewrite E.
             ++ injection E as _ E. apply (B (g :: a) g' b z); auto. now rewrite E.
        * exists ([l] :: g :: gs). destruct G as (-> & F & B). split; [reflexivity|]. split.
          -- constructor; auto. exists [], l. split; auto. intros ? [].
          -- intros a g' b z E N. destruct a as [|x a].
             ++ injection E as E <-. destruct g' as [|y [|w g']]; try discriminate. injection E as <-. intros H. apply continued_ends in H. congruence.
             ++ injection E as _ E. apply (B a g' b z); auto. }
  exists gs. assert (exists ts, Forall2 group_text gs ts) as (ts & F).
  { clear G. induction gs as [|g gs (ts & F)]; [exists []; constructor|]. destruct (GT g) as (t & T). exists (t :: ts). now constructor. }
  exists ts. auto.
Qed.
Print Assumptions C72_groups_exist.

(* At most 32 errors are kept; the next one ends the reading, and one more raises. *)
Fixpoint add_errs (o : pobj) (ms : list str) : res pobj :=
  match ms with [] => Ok o | m :: r => o' <- add_syntax_err o m ;; add_errs o' r end.
Lemma add_errs_small ms : forall o, po_errs o = length (po_msgs o) -> po_errs o + length ms <= 32 ->
  add_errs o ms = Ok (mkPO (po_lines o) (po_num o) (po_next o) (po_msgs o ++ ms) (po_errs o + length ms)).
Proof.
  induction ms as [|m ms IH]; intros o E H; cbn [add_errs length] in *.
  - rewrite app_nil_r, Nat.add_0_r. now destruct o.
  - unfold add_syntax_err. assert (max_errors <? po_errs o = false) as -> by (apply Nat.ltb_ge; unfold max_errors; lia).
    assert (po_errs o =? max_errors = false) as -> by (apply Nat.eqb_neq; unfold max_errors; lia).
    assert (po_errs o <? max_errors = true) as -> by (apply Nat.ltb_lt; unfold max_errors; lia).
    rewrite andb_false_r. cbn [bind andb]. rewrite IH; cbn [po_errs po_msgs po_lines po_num po_next]; [|rewrite app_length; cbn; lia|lia].
    f_equal. rewrite <- app_assoc. cbn [app]. f_equal. lia.
Qed.
Theorem C72_error_limit : forall raw start ms,
  (length ms <= 32 -> exists o, add_errs (po_new raw start) ms = Ok o /\ po_msgs o = ms /\ po_num o = start) /\
  (forall a m, length a = 32 -> ms = a ++ [m] -> exists o, add_errs (po_new raw start) ms = Ok o /\
      po_msgs o = a ++ [L "Maximum number of errors exceeded"] /\ fst (curr_line o) = None /\ fst (next_line o) = None) /\
  (length ms > 33 -> add_errs (po_new raw start) ms = Raise "CCPPError").
Proof.
  intros raw start ms.
  assert (X : forall a m r, length a = 32 -> add_errs (po_new raw start) (a ++ m :: r) = add_errs (mkPO raw (length raw) (length raw) (a ++ [L "Maximum number of errors exceeded"]) 33) r).
  { intros a m r Ha. assert (APP : forall a o, add_errs o (a ++ m :: r) = (o' <- add_errs o a ;; add_errs o' (m :: r))).
    { clear. induction a as [|x a IH]; intros o; [reflexivity|]. cbn [app add_errs]. destruct (add_syntax_err o x); cbn; auto. }
    rewrite APP, add_errs_small by (cbn; auto; rewrite Ha; cbn; lia). cbn [bind add_errs po_new po_lines po_num po_next po_msgs po_errs app]. rewrite Ha.
    unfold add_syntax_err. cbn [po_lines po_num po_next po_msgs po_errs plus max_errors]. destruct a as [|y a]; [discriminate|]. reflexivity. }
  split; [|split].
  - intros H. rewrite add_errs_small by (cbn; auto; lia). eexists. split; [reflexivity|]. cbn. auto.
  - intros a m Ha ->. rewrite X by auto. cbn [add_errs]. eexists. split; [reflexivity|]. cbn [po_msgs]. split; auto.
    unfold next_line, curr_line. rewrite !curr_line_group by lia. cbn [po_at po_num po_next po_lines]. rewrite !skipn_all. auto.
  - intros H. assert (E : exists a m m' r, ms = a ++ m :: m' :: r /\ length a = 32).
    { exists (firstn 32 ms). destruct (skipn 32 ms) as [|m [|m' r]] eqn:S.
      - apply (f_equal (@length str)) in S. rewrite skipn_length in S. cbn [length] in S. lia.
      - apply (f_equal (@length str)) in S. rewrite skipn_length in S. cbn [length] in S. lia.
      - exists m, m', r. split; [now rewrite <- S, firstn_skipn|]. rewrite firstn_length. lia. }
    destruct E as (a & m & m' & r & -> & Ha). rewrite X by auto. cbn [add_errs]. unfold add_syntax_err at 1. cbn [po_lines po_num po_next po_msgs po_errs].
    destruct a as [|y a]; [discriminate|]. reflexivity.
Qed.
Print Assumptions C72_error_limit.
Example C72_error_limit_ok : exists o, add_errs (po_new [L "a"; L "b"] 0) (List.repeat (L "bad") 33) = Ok o /\ fst (curr_line o) = None.
Proof. eexists. split; vm_compute; reflexivity. Qed.
