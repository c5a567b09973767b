(* LineProps.v: properties C23 to C26, C61 and C62. *)
From Verif Require Import PyStr LineModel LineSpec CheckProofs LineProofs.
Open Scope nat_scope.
Open Scope list_scope.

(* ---- C23 ---- *)
(* The line is cut exactly at the semicolons in code context; the statements are the
   pieces that are not empty, in order. *)
Theorem C23_statements : forall line, exists l,
  cuts ";" (fun pre => ctx_of pre = Code) line l /\ line_statements line = List.filter (fun s => negb (str_eqb s [])) l.
Proof.
  intros line. exists (pieces None [] line). split.
  - split; [apply pieces_ne|]. split; [apply (pieces_join line None [])|]. intros pre post.
    fold (splits (pieces None [] line) ";" pre post). rewrite pieces_splits. cbn [app ctx_mode]. unfold ctx_of. split.
    + intros (p & -> & E & F). auto.
    + intros [E F]. exists pre. auto.
  - unfold line_statements. rewrite ls_pieces. apply filter_ext. intros [|]; reflexivity.
Qed.
Print Assumptions C23_statements.
Example C23_ex : line_statements (L "a = 'x;y' ; b;; c ! d ; e") = [L "a = 'x;y' "; L " b"; L " c ! d ; e"] /\
  ctx_of (L "a = 'x") = Quote "'" /\ ctx_of (L "a = 'x;y' ") = Code /\ ctx_of (L "a ! ") = Comment.
Proof. repeat split. Qed.
(* empty statements are dropped, so the line itself is not recovered *)
Theorem C23_join_refuted : exists line, join (L ";") (line_statements line) <> line.
Proof. exists (L "a;;b"). discriminate. Qed.
Print Assumptions C23_join_refuted.

(* ---- C24 ---- *)
(* A list is cut exactly at the commas before which as many parentheses were closed as
   opened; the items are the pieces, stripped, that are not blank.  Unbalanced text raises. *)
Theorem C24_reassemble : forall s,
  (paren_sum s = 0%Z -> exists l, cuts "," (fun pre => paren_sum pre = 0%Z) s l /\ (forall x, In x l -> paren_sum x = 0%Z) /\
     reassemble_parens s = Ok (List.filter (fun v => negb (str_eqb v [])) (map strip l))) /\
  (paren_sum s <> 0%Z -> exists m, reassemble_parens s = Raise m).
Proof.
  intros s. unfold reassemble_parens. destruct (split_on "," s) as [|p r] eqn:Q; [now apply split_on_nonempty in Q|].
  assert (J : join (L ",") (p :: r) = s) by (rewrite <- Q; apply join_split). pose proof (glue_raises r p) as GR. rewrite J in GR. split.
  - intros Z. destruct (glue p r) as [l|m] eqn:G; [|exfalso; apply GR; eauto]. cbn [bind]. exists l.
    destruct (glue_spec r p l G) as (N & JL & B & S). split; [|split; auto]. split; auto. split; [change [","%char] with (L ","); congruence|].
    intros pre post. fold (splits l "," pre post). rewrite S. split.
    + intros (r1 & r2 & -> & N2 & -> & -> & E). split; auto. rewrite <- J. change (p :: r1 ++ r2) with ((p :: r1) ++ r2). rewrite join_app by (auto; discriminate). reflexivity.
    + intros [E Z2]. rewrite E in Q. rewrite split_cat in Q. destruct (split_on "," pre) as [|a q] eqn:P; [now apply split_on_nonempty in P|].
      cbn in Q. injection Q as -> <-. exists q, (split_on "," post). split; auto. split; [apply split_ne|]. split; [|split; auto].
      * rewrite <- P. symmetry. apply join_split.
      * symmetry. apply join_split.
  - intros Z. apply GR in Z as (m & ->). cbn. eauto.
Qed.
Print Assumptions C24_reassemble.
Example C24_ex : paren_sum (L "dimension(size(x,1),n),  intent(in)") = 0%Z /\
  reassemble_parens (L "dimension(size(x,1),n),  intent(in),") = Ok [L "dimension(size(x,1),n)"; L "intent(in)"] /\
  (exists m, reassemble_parens (L "a(b,c") = Raise m).
Proof. split; [reflexivity|]. split; [reflexivity|]. eexists. reflexivity. Qed.
(* text in quotes is not protected, contrary to the description of the function *)
Theorem C24_quotes_refuted : reassemble_parens (L "x = 'a,b'") = Ok [L "x = 'a"; L "b'"] /\ exists m, reassemble_parens (L "x = '('") = Raise m.
Proof. split; [reflexivity|]. eexists. reflexivity. Qed.
Print Assumptions C24_quotes_refuted.

(* ---- C25 ---- *)
(* the result of the (k+1)th call *)
Fixpoint nth_call (k : nat) (p : pobj) : option str * nat :=
  match k with 0 => snd (next_line p) | S k => nth_call k (fst (next_line p)) end.
Lemma next_at p pre rest : po_lines p = pre ++ rest -> po_next p = length pre ->
  next_line p = match groups rest with
                | [] => (po_pos p (po_next p) (po_next p), (None, po_next p))
                | g :: _ => (po_pos p (po_next p) (po_next p + length g), (Some (group_text g), po_next p))
                end.
Proof.
  intros E N. unfold next_line, curr_line. cbn [po_lines po_num po_next po_pos]. rewrite E, N.
  rewrite read_groups by (rewrite app_length; lia). destruct (groups rest); reflexivity.
Qed.
Theorem C25_lines : forall lines start gs, start <= length lines -> grouped (skipn start lines) gs ->
  forall k, nth_call k (po_new lines start) =
    match nth_error gs k with
    | Some g => (Some (group_text g), start + start_of gs k)
    | None => (None, length lines)
    end.
Proof.
  intros lines start gs ST G.
  assert (X : forall k p gs pre, po_lines p = pre ++ List.concat gs -> po_next p = length pre -> grouped (List.concat gs) gs ->
     nth_call k p = match nth_error gs k with Some g => (Some (group_text g), length pre + start_of gs k) | None => (None, length (po_lines p)) end).
  { clear. induction k as [|k IH]; intros p gs pre E N G.
    - cbn [nth_call]. rewrite (next_at p pre (List.concat gs)) by auto. pose proof (grouped_unique _ _ G) as U.
      destruct gs as [|g gs']; cbn [nth_error].
      + cbn [List.concat groups snd] in *. rewrite N, E, app_nil_r. reflexivity.
      + rewrite <- U. cbn [snd]. unfold start_of. cbn. rewrite N. f_equal. lia.
    - cbn [nth_call]. rewrite (next_at p pre (List.concat gs)) by auto. pose proof (grouped_unique _ _ G) as U.
      destruct gs as [|g gs']; cbn [nth_error].
      + cbn [List.concat groups fst]. assert (P : forall j q, po_lines q = po_lines p -> po_next q = length pre -> nth_call j q = (None, length (po_lines p))).
        { induction j as [|j IHj]; intros q E1 E2; cbn [nth_call]; rewrite (next_at q pre []) by (rewrite ?E1, ?E2, ?E; auto); cbn [groups fst snd].
          - rewrite E2, E. cbn. now rewrite app_nil_r.
          - apply IHj; auto. }
        apply P; auto.
      + rewrite <- U. cbn [fst]. assert (G' : grouped (List.concat gs') gs').
        { destruct G as [_ H]. split; auto. intros i h Hi. destruct (H (S i) h Hi) as (b & l & -> & B & C). exists b, l. split; auto. split; auto. intros K. specialize (C K). cbn in C. lia. }
        rewrite (IH _ gs' (pre ++ g)); cbn [po_lines po_next po_pos]; [|rewrite E; cbn; now rewrite app_assoc|rewrite app_length; lia|auto].
        destruct (nth_error gs' k); auto. unfold start_of. cbn [firstn List.concat]. rewrite !app_length. f_equal. lia. }
  intros k. rewrite (X k (po_new lines start) gs (firstn start lines)).
  - destruct (nth_error gs k); auto. rewrite firstn_length, Nat.min_l by auto. reflexivity.
  - destruct G as [-> _]. symmetry. apply firstn_skipn.
  - cbn. now rewrite firstn_length, Nat.min_l by auto.
  - destruct G as [C H]. split; auto.
Qed.
Print Assumptions C25_lines.
Theorem C25_grouping_exists : forall lines, exists gs, grouped lines gs /\ forall gs', grouped lines gs' -> gs' = gs.
Proof. intros lines. exists (groups lines). split; [apply groups_ok|]. intros gs' G. now apply grouped_unique. Qed.
Print Assumptions C25_grouping_exists.
(* asking for the current line again changes nothing *)
Theorem C25_curr_line_repeats : forall p, let '(p', r) := next_line p in curr_line p' = (p', r).
Proof.
  intros p. unfold next_line, curr_line. cbn [po_lines po_num po_next po_pos].
  destruct (read_from (S (length (po_lines p))) (po_lines p) (po_next p) (po_next p)) as [t n] eqn:E. cbn [po_lines po_num po_next po_pos].
  assert (X : read_from (S (length (po_lines p))) (po_lines p) (po_next p) n = (t, n)); [|rewrite X; reflexivity].
  cbn [read_from] in *. destruct (nth_error (po_lines p) (po_next p)); [|congruence]. exact E.
Qed.
Print Assumptions C25_curr_line_repeats.
(* rewriting a line changes what is read there and nothing else *)
Theorem C25_write_line : forall p i l, (i < length (po_lines p) -> exists p', write_line p i l = Ok p' /\ po_next p' = po_next p /\ po_num p' = po_num p /\
    length (po_lines p') = length (po_lines p) /\ peek_line p' i = Some l /\ forall j, j <> i -> peek_line p' j = peek_line p j) /\
  (length (po_lines p) <= i -> exists m, write_line p i l = Raise m).
Proof.
  intros p i l. unfold write_line, peek_line. split.
  - intros LT. apply Nat.ltb_lt in LT. rewrite LT. apply Nat.ltb_lt in LT. eexists. split; [reflexivity|]. cbn [po_lines po_next po_num]. split; auto. split; auto.
    split; [apply list_set_length|]. split; [now apply nth_error_list_set_eq|]. intros j NE. apply nth_error_list_set_neq; congruence.
  - intros GE. replace (i <? length (po_lines p)) with false by (symmetry; now apply Nat.ltb_ge). eauto.
Qed.
Print Assumptions C25_write_line.
Theorem C25_reset_pos : forall p i p', reset_pos p i = Ok p' -> i < length (po_lines p) /\ next_line p' = curr_line p' /\ snd (snd (curr_line p')) = i.
Proof.
  intros p i p'. unfold reset_pos. destruct (i <? length (po_lines p)) eqn:E; [|discriminate]. apply Nat.ltb_lt in E. intros [= <-]. split; auto. split; [reflexivity|].
  unfold curr_line. cbn [po_num po_pos]. destruct (read_from _ _ _ _). reflexivity.
Qed.
Print Assumptions C25_reset_pos.
Example C25_ex : let p := po_new [L "a \"; L "b\  "; L "c"; L "d"; L "e\"] 0 in
  nth_call 0 p = (Some (L "a bc"), 0) /\ nth_call 1 p = (Some (L "d"), 3) /\ nth_call 2 p = (Some (L "e"), 4) /\ nth_call 3 p = (None, 5) /\ nth_call 9 p = (None, 5).
Proof. repeat split. Qed.
Example C25_ex2 : grouped [L "a \"; L "b"; L "c"] [[L "a \"; L "b"]; [L "c"]].
Proof. change [[L "a \"; L "b"]; [L "c"]] with (groups [L "a \"; L "b"; L "c"]). apply groups_ok. Qed.

(* ---- C61: statements ---- *)
(* read_statements returns the statements of the next logical line that has any, or None
   at the end of the file *)
Fixpoint skip_empty (ls : list str) : option (list str) :=
  match ls with
  | [] => None
  | l :: t => match line_statements l with [] => skip_empty t | st => Some st end
  end.
Lemma stmts_ne l : existsb (fun x : str => 0 <? length x) (line_statements l) = match line_statements l with [] => false | _ => true end.
Proof.
  unfold line_statements. rewrite ls_pieces. destruct (List.filter ne (pieces None [] l)) as [|x r] eqn:E; auto. cbn [existsb].
  assert (I : In x (List.filter ne (pieces None [] l))) by (rewrite E; now left). apply filter_In in I as [_ I]. destruct x; [discriminate|reflexivity].
Qed.
Theorem C61_read_statements : forall p pre gs, po_lines p = pre ++ List.concat gs -> po_next p = length pre -> grouped (List.concat gs) gs ->
  forall fuel, length gs < fuel -> exists p', read_statements fuel p = Some (p', skip_empty (map group_text gs)).
Proof.
  intros p pre gs. revert p pre. induction gs as [|g gs IH]; intros p pre E N G fuel F; (destruct fuel as [|fuel]; [lia|]); cbn [read_statements].
  - rewrite (next_at p pre []) by auto. cbn. eauto.
  - rewrite (next_at p pre (List.concat (g :: gs))) by auto. rewrite <- (grouped_unique _ _ G). cbn [map skip_empty]. cbv zeta. rewrite stmts_ne.
    destruct (line_statements (group_text g)); [|eauto].
    apply (IH _ (pre ++ g)); cbn [po_lines po_next po_pos]; [rewrite E; cbn; now rewrite app_assoc|rewrite app_length; lia| |cbn in F; lia].
    destruct G as [_ H]. split; auto. intros i h Hi. destruct (H (S i) h Hi) as (b & l & -> & B & C). exists b, l. split; auto. split; auto. intros K. specialize (C K). cbn in C. lia.
Qed.
Print Assumptions C61_read_statements.
Example C61_ex : exists p', read_statements 9 (po_new [[]; L ";"; L "a;b"; L "c"] 0) = Some (p', Some [L "a"; L "b"]).
Proof. eexists. reflexivity. Qed.

(* ---- C62: the error limit ---- *)
Fixpoint add_errs (n : nat) (p : pobj) : res pobj := match n with 0 => Ok p | S n => q <- add_errs n p ;; add_syntax_err q end.
(* the first 32 errors are recorded without moving; the next one ends the file; one more raises *)
Lemma add_errs_small lines start n : n <= max_errors -> add_errs n (po_new lines start) = Ok (mkPO lines start start n n false).
Proof.
  induction n as [|n IH]; intros H; [reflexivity|]. cbn [add_errs]. rewrite IH by lia. cbn [bind]. unfold add_syntax_err. cbn [po_errs po_msgs].
  replace (max_errors <? n) with false by (symmetry; apply Nat.ltb_ge; lia). rewrite andb_false_r.
  replace (n =? max_errors) with false by (symmetry; apply Nat.eqb_neq; lia). rewrite andb_false_r. cbn [po_errs po_msgs po_lines po_num po_next po_max].
  replace (n <? max_errors) with true by (symmetry; apply Nat.ltb_lt; lia). reflexivity.
Qed.
Lemma add_errs_S n p : add_errs (S n) p = (q <- add_errs n p ;; add_syntax_err q). Proof. reflexivity. Qed.
Lemma max_pos : 0 < max_errors. Proof. unfold max_errors. lia. Qed.
Local Opaque max_errors.
Lemma add_errs_full lines start : add_errs (S max_errors) (po_new lines start) = Ok (mkPO lines (length lines) (length lines) (S max_errors) max_errors true).
Proof.
  rewrite add_errs_S, add_errs_small by auto. cbn [bind]. unfold add_syntax_err. cbn [po_errs po_msgs].
  replace (0 <? max_errors) with true by (symmetry; apply Nat.ltb_lt, max_pos). rewrite Nat.ltb_irrefl, Nat.eqb_refl. cbn [andb po_lines po_num po_next po_errs po_msgs po_max].
  rewrite Nat.ltb_irrefl. reflexivity.
Qed.
Theorem C62_error_limit : forall lines start,
  (forall n, n <= max_errors -> exists p, add_errs n (po_new lines start) = Ok p /\ po_msgs p = n /\ po_max p = false /\ po_next p = start) /\
  (exists p, add_errs (S max_errors) (po_new lines start) = Ok p /\ po_msgs p = max_errors /\ po_max p = true /\ forall k, nth_call k p = (None, length lines)) /\
  (forall n, S max_errors < n -> exists m, add_errs n (po_new lines start) = Raise m).
Proof.
  intros lines start. split; [|split].
  - intros n H. rewrite add_errs_small by auto. eexists. split; [reflexivity|]. auto.
  - eexists. split; [apply add_errs_full|]. split; [reflexivity|]. split; [reflexivity|].
    intros k. assert (P : forall j q, po_lines q = lines -> po_next q = length lines -> nth_call j q = (None, length lines)).
      { clear. induction j as [|j IHj]; intros q E1 E2; cbn [nth_call]; rewrite (next_at q lines []) by (rewrite ?E1, ?E2, ?app_nil_r; auto); cbn [groups fst snd]; [now rewrite E2|].
        apply IHj; auto. }
      apply P; reflexivity.
  - intros n H. induction n as [|n IH]; [lia|]. rewrite add_errs_S. destruct (Nat.eq_dec n (S max_errors)) as [-> |NE].
    + rewrite add_errs_full. cbn [bind]. unfold add_syntax_err. cbn [po_errs po_msgs].
      replace (0 <? max_errors) with true by (symmetry; apply Nat.ltb_lt, max_pos). replace (max_errors <? S max_errors) with true by (symmetry; apply Nat.ltb_lt; lia). cbn [andb]. eauto.
    + destruct IH as (m & E); [lia|]. rewrite E. cbn. eauto.
Qed.
Theorem C62_limit_value : max_errors = 32. Proof. reflexivity. Qed.
Print Assumptions C62_limit_value.
Print Assumptions C62_error_limit.
Example C62_ex : exists p, add_errs 33 (po_new [L "a"; L "b"] 0) = Ok p /\ po_max p = true.
Proof. eexists. split; [apply (add_errs_full [L "a"; L "b"] 0)|reflexivity]. Qed.

(* ---- C26 ---- *)
Lemma last_cases {A} (r : list A) : r = [] \/ exists r' x, r = r' ++ [x].
Proof. destruct r as [|a r] using rev_ind; eauto. Qed.
Lemma removelast_snoc {A} (r : list A) x : removelast (r ++ [x]) = r.
Proof. apply removelast_last. Qed.
(* leaving succeeds exactly for the innermost region of that type, whose name is the given
   one if a name is given *)
Theorem C26_leave : forall r ty name, snd (leave_region r ty name) = true <->
  exists r' cn, r = r' ++ [(ty, cn)] /\ (name = None \/ (name = cn)).
Proof.
  intros r ty name. destruct (last_cases r) as [-> |(r' & (ct & cn) & ->)].
  - cbn. split; [discriminate|]. intros (r' & cn & E & _). destruct r'; discriminate.
  - unfold leave_region. rewrite rev_app_distr. cbn [rev app]. destruct (str_eqb ct ty) eqn:E; cbn [negb].
    + apply str_eqb_eq in E. subst ct. split.
      * intros H. exists r', cn. split; auto. destruct name as [n|]; auto. destruct cn as [c|]; [|discriminate]. cbn in H. apply str_eqb_eq in H. subst. auto.
      * intros (r2 & c2 & E & H). apply app_inj_tail in E as [_ E]. injection E as <-. destruct H as [-> | ->]; [reflexivity|]. destruct cn; cbn; auto. apply str_eqb_refl.
    + apply str_eqb_neq in E. split; [discriminate|]. intros (r2 & c2 & E2 & H). apply app_inj_tail in E2 as [_ E2]. congruence.
Qed.
Print Assumptions C26_leave.
(* a successful leave closes that region only *)
Theorem C26_leave_effect : forall r ty name r', leave_region r ty name = (r', true) -> exists cn, r = r' ++ [(ty, cn)].
Proof.
  intros r ty name r' H. pose proof (C26_leave r ty name) as C. rewrite H in C. destruct C as [C _]. destruct (C eq_refl) as (q & cn & -> & _).
  exists cn. f_equal. unfold leave_region in H. rewrite rev_app_distr in H. cbn [rev app] in H. rewrite removelast_snoc in H.
  destruct (negb (str_eqb ty ty)); [congruence|]. destruct name, cn; congruence.
Qed.
Print Assumptions C26_leave_effect.
(* entering: refused exactly for a type already open when nesting is not allowed *)
Theorem C26_enter : forall r ty name ok,
  (snd (enter_region r ty name ok) = false <-> ok = false /\ In ty (map fst r)) /\
  (snd (enter_region r ty name ok) = false -> fst (enter_region r ty name ok) = r) /\
  (snd (enter_region r ty name ok) = true -> fst (enter_region r ty name ok) = r ++ [(ty, name)]).
Proof.
  intros r ty name ok. unfold enter_region. assert (X : existsb (str_eqb ty) (map fst r) = true <-> In ty (map fst r)).
  { rewrite existsb_exists. split; [intros (x & I & E); apply str_eqb_eq in E; now subst|]. intros I. exists ty. split; auto. apply str_eqb_refl. }
  destruct (existsb (str_eqb ty) (map fst r)), ok; cbn [negb orb fst snd]; (split; [split; [intros K; try discriminate K; tauto|intros [K1 K2]; try discriminate K1; try (apply X in K2; discriminate K2); auto]|]); split; auto; discriminate.
Qed.
Print Assumptions C26_enter.

Inductive rop := Enter (ty : str) (name : option str) (nested_ok : bool) | Leave (ty : str) (name : option str).
Definition rstep (r : regions) (o : rop) : regions :=
  match o with Enter ty n ok => fst (enter_region r ty n ok) | Leave ty n => fst (leave_region r ty n) end.
(* a type that is always entered with nesting refused is open at most once, after every
   history of operations, failed ones included *)
Theorem C26_no_nesting : forall ty ops, (forall n ok, In (Enter ty n ok) ops -> ok = false) ->
  forall r, r = fold_left rstep ops [] -> forall i j x y, nth_error r i = Some (ty, x) -> nth_error r j = Some (ty, y) -> i = j.
Proof.
  intros ty ops H.
  assert (X : forall r, (forall i j x y, nth_error r i = Some (ty, x) -> nth_error r j = Some (ty, y) -> i = j) ->
     forall i j x y, nth_error (fold_left rstep ops r) i = Some (ty, x) -> nth_error (fold_left rstep ops r) j = Some (ty, y) -> i = j).
  { induction ops as [|o ops IH]; intros r R; cbn [fold_left]; auto. apply IH; [intros n ok I; apply (H n ok); now right|].
    destruct o as [t n ok|t n]; cbn [rstep].
    - unfold enter_region. destruct (negb (existsb (str_eqb t) (map fst r)) || ok) eqn:E; auto. cbn [fst]. destruct (str_eq_dec t ty) as [-> |NE].
      + assert (ok = false) by (apply (H n ok); now left). subst ok. rewrite orb_false_r in E. apply negb_true_iff in E.
        assert (NI : forall i x, nth_error r i <> Some (ty, x)).
        { intros i x I. apply nth_error_In in I. assert (existsb (str_eqb ty) (map fst r) = true); [|congruence]. apply existsb_exists. exists ty. split; [|apply str_eqb_refl]. apply in_map_iff. exists (ty, x). auto. }
        intros i j x y A B. assert (Y : forall k z, nth_error (r ++ [(ty, n)]) k = Some (ty, z) -> k = length r).
        { intros k z K. destruct (Nat.lt_ge_cases k (length r)) as [LT|GE]; [rewrite nth_error_app1 in K by auto; now apply NI in K|].
          rewrite nth_error_app2 in K by auto. destruct (k - length r) as [|q] eqn:D; [lia|]. destruct q; discriminate. }
        apply Y in A. apply Y in B. congruence.
      + intros i j x y A B. assert (Y : forall k z, nth_error (r ++ [(t, n)]) k = Some (ty, z) -> nth_error r k = Some (ty, z)).
        { intros k z K. destruct (Nat.lt_ge_cases k (length r)) as [LT|GE]; [rewrite nth_error_app1 in K by auto; auto|].
          rewrite nth_error_app2 in K by auto. destruct (k - length r) as [|[|q]]; cbn in K; [congruence|discriminate|discriminate]. }
        eapply R; eauto.
    - destruct (last_cases r) as [-> |(r' & (ct & cn) & ->)]; [exact R|].
      assert (Y : fst (leave_region (r' ++ [(ct, cn)]) t n) = r').
      { unfold leave_region. rewrite rev_app_distr. cbn [rev app]. rewrite removelast_snoc. destruct (negb (str_eqb ct t)); auto. destruct n, cn; auto. }
      rewrite Y. intros i j x y A B. apply (R i j x y); rewrite nth_error_app1; auto; apply nth_error_Some; congruence. }
  intros r -> . apply X. intros [|i] j x y A; discriminate.
Qed.
Print Assumptions C26_no_nesting.
(* properly bracketed operations all succeed and leave the regions as they were *)
Inductive bracketed : list rop -> Prop :=
| BNil : bracketed []
| BSeq ty n m a b : (m = None \/ m = n) -> bracketed a -> bracketed b -> bracketed (Enter ty n true :: a ++ Leave ty m :: b).
Fixpoint all_ok (r : regions) (ops : list rop) : bool :=
  match ops with
  | [] => true
  | o :: t => (match o with Enter ty n ok => snd (enter_region r ty n ok) | Leave ty n => snd (leave_region r ty n) end) && all_ok (rstep r o) t
  end.
Lemma all_ok_app a b r : all_ok r (a ++ b) = all_ok r a && all_ok (fold_left rstep a r) b.
Proof. revert r. induction a as [|o a IH]; intros r; cbn [app all_ok fold_left]; auto. now rewrite IH, andb_assoc. Qed.
Theorem C26_bracketed : forall ops, bracketed ops -> forall r, all_ok r ops = true /\ fold_left rstep ops r = r.
Proof.
  induction 1 as [|ty n m a b M A IHa B IHb]; intros r; [auto|].
  assert (E : enter_region r ty n true = (r ++ [(ty, n)], true)) by (unfold enter_region; rewrite orb_true_r; reflexivity).
  destruct (IHa (r ++ [(ty, n)])) as [A1 A2]. destruct (IHb r) as [B1 B2].
  assert (LV : leave_region (r ++ [(ty, n)]) ty m = (r, true)).
  { destruct (leave_region (r ++ [(ty, n)]) ty m) as [q f] eqn:Q. assert (f = true).
    { pose proof (C26_leave (r ++ [(ty, n)]) ty m) as C. rewrite Q in C. apply C. exists r, n. split; auto. }
    subst f. apply C26_leave_effect in Q as (cn & Q). apply app_inj_tail in Q as [-> _]. reflexivity. }
  cbn [all_ok fold_left rstep]. rewrite E. cbn [fst snd andb]. rewrite all_ok_app, fold_left_app, A1, A2. cbn [all_ok fold_left rstep]. rewrite LV. cbn. auto.
Qed.
Print Assumptions C26_bracketed.
Theorem C26_in_region : forall r ty name, in_region r ty name = true <-> exists r', r = r' ++ [(ty, name)].
Proof.
  intros r ty name. unfold in_region, curr_region. destruct (last_cases r) as [-> |(r' & (ct & cn) & ->)].
  - cbn. split; [discriminate|]. intros (r' & E). destruct r'; discriminate.
  - rewrite rev_app_distr. cbn [rev app]. rewrite andb_true_iff, str_eqb_eq. split.
    + intros [-> H]. exists r'. destruct cn, name; cbn in H; try discriminate; auto. apply str_eqb_eq in H. now subst.
    + intros (q & E). apply app_inj_tail in E as [_ E]. injection E as -> ->. split; auto. destruct name; cbn; auto. apply str_eqb_refl.
Qed.
Print Assumptions C26_in_region.
Example C26_ex : let ops := [Enter (L "MODULE") (Some (L "m")) true; Enter (L "ddt") None true; Leave (L "ddt") None; Leave (L "MODULE") (Some (L "m"))] in
  bracketed ops /\ leave_region [(L "MODULE", Some (L "m"))] (L "MODULE") (Some (L "x")) = ([], false) /\ snd (enter_region [(L "MODULE", Some (L "m"))] (L "MODULE") None false) = false.
Proof.
  split; [|split; reflexivity]. apply (BSeq (L "MODULE") (Some (L "m")) (Some (L "m")) [Enter (L "ddt") None true; Leave (L "ddt") None] []); [auto| |constructor].
  apply (BSeq (L "ddt") None None [] []); [auto|constructor|constructor].
Qed.
(* a leave that fails closes a region all the same *)
Theorem C26_failed_leave_refuted : exists r ty, leave_region r ty None = ([], false) /\ r <> [].
Proof. exists [(L "MODULE", None)], (L "PROGRAM"). split; [reflexivity|discriminate]. Qed.
Print Assumptions C26_failed_leave_refuted.
