(* HdrProofs.v: lemmas for C95 to C99. *)
From Verif Require Import Base PyStr ReqModel ReqProofs DictModel DictProofs CheckProofs HdrModel HdrSpec.
From Coq Require Import Lia.
Open Scope nat_scope.
Open Scope list_scope.

Lemma Forall2_in_l {A B} (R : A -> B -> Prop) l l' : Forall2 R l l' -> forall x, In x l -> exists y, In y l' /\ R x y.
Proof. induction 1 as [|a b l l' H _ IH]; intros x I; [destruct I|]. destruct I as [<-|I]; [exists b; split; [now left|exact H]|]. destruct (IH x I) as (y & J & K). exists y. split; [now right|exact K]. Qed.
Lemma arr_spec s : is_arrayspec s = true <-> In "("%char s.
Proof. unfold is_arrayspec. rewrite existsb_exists. split; [intros (c & I & E); apply Ascii.eqb_eq in E; now subst|intros I; exists "("%char; split; [exact I|reflexivity]]. Qed.
Lemma arr_false s : is_arrayspec s = false <-> ~ In "("%char s.
Proof. rewrite <- arr_spec. destruct (is_arrayspec s); split; intros; congruence. Qed.
Lemma comp_str_spec a b : comp_str a b = true <-> same_ci a b.
Proof. unfold comp_str. apply str_eqb_eq. Qed.
Lemma comp_opt_spec a b : comp_opt a b = true <-> same_opt a b.
Proof. destruct a, b; cbn; try apply comp_str_spec; split; intros; try discriminate; try tauto. Qed.
Lemma one_err_nil b e : one_err b e = [] <-> b = true.
Proof. destruct b; cbn; split; intros; congruence. Qed.
Lemma find_var_some name l : forall i f j, find_var name l i = Some (f, j) ->
  i <= j /\ nth_error l (j - i) = Some f /\ same_ci (h_local f) name /\ forall k g, k < j - i -> nth_error l k = Some g -> ~ same_ci (h_local g) name.
Proof.
  induction l as [|v l IH]; intros i f j E; cbn [find_var] in E; [discriminate|]. destruct (str_eqb _ _) eqn:Q.
  - injection E as <- <-. apply str_eqb_eq in Q. rewrite Nat.sub_diag. repeat split; auto. intros k g H. lia.
  - apply IH in E as (A & B & C & D). apply str_eqb_neq in Q. replace (j - i) with (S (j - S i)) by lia. repeat split; auto; [lia|].
    intros [|k] g H N; [cbn in N; injection N as <-; exact Q|]. apply (D k); [lia|exact N].
Qed.
Lemma find_var_none name l : forall i, find_var name l i = None <-> forall v, In v l -> ~ same_ci (h_local v) name.
Proof.
  induction l as [|v l IH]; intros i; cbn [find_var]; [split; [intros _ v []|reflexivity]|]. destruct (str_eqb _ _) eqn:Q.
  - apply str_eqb_eq in Q. split; [discriminate|]. intros H. exfalso. apply (H v); [now left|exact Q].
  - apply str_eqb_neq in Q. rewrite IH. split; intros H w; [intros [<-|I]; auto|intros I; apply H; now right].
Qed.
Lemma find_var_first name l : forall i k f, nth_error l k = Some f -> same_ci (h_local f) name ->
  (forall k' g, k' < k -> nth_error l k' = Some g -> ~ same_ci (h_local g) name) -> find_var name l i = Some (f, i + k).
Proof.
  induction l as [|v l IH]; intros i k f N Sm D; [destruct k; discriminate|]. cbn [find_var]. destruct k as [|k].
  - cbn in N. injection N as ->. apply str_eqb_eq in Sm. unfold same_ci in Sm. rewrite Sm. rewrite Nat.add_0_r. reflexivity.
  - destruct (str_eqb _ _) eqn:Q; [apply str_eqb_eq in Q; exfalso; apply (D 0 v); [lia|reflexivity|exact Q]|].
    rewrite (IH (S i) k f N Sm); [f_equal; f_equal; lia|]. intros k' g L' N'. apply (D (S k')); [lia|exact N'].
Qed.
Lemma distinct_find l k f : distinct_names l -> nth_error l k = Some f -> forall name, same_ci (h_local f) name -> find_var name l 0 = Some (f, k).
Proof.
  intros D N name Sm. rewrite (find_var_first name l 0 k f N Sm); [reflexivity|]. intros k' g L' N' Sg.
  unfold distinct_names in D. assert (E : nth_error (map (fun v => lower (h_local v)) l) k' = nth_error (map (fun v => lower (h_local v)) l) k).
  { rewrite !nth_error_map, N, N'. cbn. f_equal. unfold same_ci in *. congruence. }
  rewrite NoDup_nth_error in D. assert (k' = k); [|lia]. apply D; [|exact E]. rewrite map_length. apply nth_error_Some. congruence.
Qed.
(* dimensions *)
Lemma map_res_ok {A B} (f : A -> res B) l : (forall x, In x l -> exists y, f x = Ok y) -> exists ys, map_res f l = Ok ys /\ length ys = length l.
Proof.
  induction l as [|x l IH]; intros H; cbn [map_res]; [exists []; auto|]. destruct (H x (or_introl eq_refl)) as (y & ->). destruct IH as (ys & -> & E); [intros; apply H; now right|].
  exists (y :: ys). split; [reflexivity|cbn; now rewrite E].
Qed.
Lemma map_res_inv {A B} (f : A -> res B) l : forall ys, map_res f l = Ok ys -> Forall2 (fun x y => f x = Ok y) l ys.
Proof.
  induction l as [|x l IH]; intros ys E; cbn [map_res] in E; [injection E as <-; constructor|]. destruct (f x) as [y|] eqn:Fx; [|discriminate]. cbn [bind] in E.
  destruct (map_res f l) as [zs|]; [|discriminate]. cbn [bind] in E. injection E as <-. constructor; auto.
Qed.
Lemma conv_item_ok mh item : (exists y, conv_item mh item = Ok y) <-> known_item mh item.
Proof.
  unfold conv_item, known_item. destruct (py_int item) as [z|] eqn:P.
  - split; [intros _; right; left; discriminate|eauto].
  - destruct item as [|c item]; [split; [auto|eauto]|]. destruct (find_var _ _ 0) as [[v j]|] eqn:F.
    + split; [intros _|eauto]. right. right. apply find_var_some in F as (_ & N & Sm & _). exists v. split; [now apply nth_error_In in N|exact Sm].
    + split; [intros (y & E); discriminate|]. rewrite find_var_none in F. intros [E|[E|(v & I & Sm)]]; [discriminate|congruence|]. now apply F in I.
Qed.
Lemma convert_dims_ok mh f : (exists y, convert_dims mh f = Ok y) <-> known_dims mh f.
Proof.
  unfold convert_dims, known_dims. destruct (h_dims f) as [l|]; [|split; [intros (y & E); discriminate|intros (l & E & _); discriminate]]. split.
  - intros (y & E). exists l. split; [reflexivity|]. intros d item Id Ii. apply map_res_inv in E.
    destruct (Forall2_in_l _ _ _ E d Id) as (z & _ & C). unfold conv_dim in C. destruct (map_res _ _) as [its|] eqn:M; [|discriminate]. apply map_res_inv in M.
    destruct (Forall2_in_l _ _ _ M item Ii) as (w & _ & W). apply conv_item_ok. eauto.
  - intros (l' & E & H). injection E as <-. destruct (map_res_ok (conv_dim mh) l) as (ys & E & _); [|eauto]. intros d Id. unfold conv_dim.
    destruct (map_res_ok (conv_item mh) (split_on ":" d)) as (its & -> & _); [|cbn; eauto]. intros it Ii. apply conv_item_ok. eauto.
Qed.
Lemma convert_dims_len mh f y : convert_dims mh f = Ok y -> exists l, h_dims f = Some l /\ length y = length l.
Proof.
  unfold convert_dims. destruct (h_dims f) as [l|]; [|discriminate]. intros E. exists l. split; [reflexivity|]. apply map_res_inv in E. symmetry. eapply F2_len; eauto.
Qed.
Lemma dim_errs_nil md : forall fd, dim_errs md fd = [].
Proof. induction md as [|m md IH]; intros [|f fd]; cbn [dim_errs]; try reflexivity. rewrite str_eqb_refl, orb_true_r, IH. reflexivity. Qed.
Lemma dims_comp_spec mh m f : dims_comp mh m f = Ok [] <-> known_dims mh f /\ same_rank m f.
Proof.
  unfold dims_comp, same_rank. split.
  - destruct (convert_dims mh f) as [fd|] eqn:C; [|discriminate]. cbn [bind]. destruct (h_dims m) as [md|]; [|discriminate]. destruct (Nat.eqb _ _) eqn:E; [|discriminate].
    intros _. split; [apply convert_dims_ok; eauto|]. apply Nat.eqb_eq in E. destruct (convert_dims_len _ _ _ C) as (l & H & Len). exists md, l. rewrite H. repeat split; auto. lia.
  - intros (K & a & b & Ha & Hb & Len). apply convert_dims_ok in K as (fd & C). rewrite C. cbn [bind]. rewrite Ha. destruct (convert_dims_len _ _ _ C) as (l & H & Len').
    rewrite Hb in H. injection H as <-. assert (E : Nat.eqb (length a) (length fd) = true) by (apply Nat.eqb_eq; lia). rewrite E, dim_errs_nil. reflexivity.
Qed.
Lemma comp_vars_nil mh fht fl n ms : forall i, comp_vars mh fht fl n i ms = Ok [] <-> forall k m, nth_error ms k = Some m -> comp_var mh fht fl n (i + k) m = Ok [].
Proof.
  induction ms as [|m ms IH]; intros i; cbn [comp_vars].
  - split; [intros _ [|k] m E; discriminate|reflexivity].
  - split.
    + destruct (comp_var mh fht fl n i m) as [e|] eqn:C; [|discriminate]. cbn [bind]. destruct (comp_vars mh fht fl n (S i) ms) as [es|] eqn:R; [|discriminate]. cbn [bind]. intros E. injection E as E.
      apply app_eq_nil in E as [-> ->]. pose proof (proj1 (IH (S i)) R) as R'. clear R. rename R' into R. intros [|k] m' N; cbn in N; [injection N as <-; now rewrite Nat.add_0_r|].
      replace (i + S k) with (S i + k) by lia. now apply R.
    + intros H. rewrite <- (Nat.add_0_r i) at 1. rewrite (H 0 m eq_refl). cbn [bind]. rewrite (proj2 (IH (S i))); [reflexivity|].
      intros k m' N. replace (S i + k) with (i + S k) by lia. now apply H.
Qed.
(* a variable that is not an array reference, at an index below flen *)
Lemma comp_var_nil mh fht fl n i m : i < n -> ~ In "("%char (h_local m) ->
  (comp_var mh fht fl n i m = Ok [] <->
   exists f j, find_var (h_local m) fl 0 = Some (f, j) /\ (fht = L "scheme" -> j = i) /\
     same_ci (h_type m) (h_type f) /\ same_opt (h_kind m) (h_kind f) /\ (hd_type mh = L "scheme" -> same_opt (h_intent m) (h_intent f)) /\
     same_rank m f /\ known_dims mh f /\ (h_opt f = true -> h_opt m = true) /\ (j <> 0 -> h_opt m = true -> h_opt f = true)).
Proof.
  intros Lt NA. apply arr_false in NA. unfold comp_var. rewrite NA. cbn [negb andb].
  assert (E0 : (n <=? i) = false) by (apply Nat.leb_gt; exact Lt). rewrite E0.
  destruct (find_var (h_local m) fl 0) as [[f j]|] eqn:F.
  2:{ split; [|intros (f & j & E & _); discriminate]. cbn [andb]. destruct (h_opt m); cbn [bind andb]; [discriminate|]. cbn. discriminate. }
  assert (Sm : comp_str (h_local m) (h_local f) = true). { apply find_var_some in F as (_ & _ & Sm & _). apply comp_str_spec. unfold same_ci in *. congruence. }
  rewrite Sm. cbn [negb]. split.
  - intros H. exists f, j. split; [reflexivity|].
    assert (He1 : exists l1, (if (match j with 0 => false | S _ => true end) && h_opt m then Ok (one_err (h_opt f) EOptF) else Ok []) = Ok l1 /\ (l1 = [] <-> (j <> 0 -> h_opt m = true -> h_opt f = true))).
    { destruct j as [|j]; cbn [andb]; [exists []; split; [reflexivity|]; split; [intros _ ?; congruence|reflexivity]|]. destruct (h_opt m).
      - eexists. split; [reflexivity|]. rewrite one_err_nil. split; auto.
      - exists []. split; [reflexivity|]. split; [discriminate|reflexivity]. }
    destruct He1 as (l1 & E1 & H1). cbn beta iota in E1, H. rewrite E1 in H. clear E1. cbn [bind] in H.
    assert (H2 : one_err (negb (h_opt f && negb (h_opt m))) EOptM = [] <-> (h_opt f = true -> h_opt m = true)). { rewrite one_err_nil. destruct (h_opt f), (h_opt m); cbn; intuition congruence. }
    set (l2 := one_err (negb (h_opt f && negb (h_opt m))) EOptM) in *.
    destruct (str_eqb fht (L "scheme") && negb (Nat.eqb j i)) eqn:O.
    { exfalso. injection H as H. apply app_eq_nil in H as [_ H]. discriminate. }
    destruct (dims_comp mh m f) as [d|] eqn:Dm; [|discriminate]. cbn [bind] in H. injection H as H.
    repeat (match goal with H : _ ++ _ = [] |- _ => apply app_eq_nil in H as [? H] end).
    rewrite one_err_nil in *. subst d. apply dims_comp_spec in Dm as [KD SR].
    split; [intros ->; rewrite str_eqb_refl in O; cbn [andb] in O; apply negb_false_iff, Nat.eqb_eq in O; exact O|].
    repeat match goal with H : comp_str _ _ = true |- _ => apply comp_str_spec in H | H : comp_opt _ _ = true |- _ => apply comp_opt_spec in H end.
    repeat split; auto.
    + intros T. rewrite T, str_eqb_refl in *. rewrite one_err_nil in *. now apply comp_opt_spec.
    + apply H2. assumption.
    + apply H1. assumption.
  - intros (f' & j' & E & Od & T & K & I & SR & KD & O1 & O2). injection E as <- <-.
    assert (E1 : (if (match j with 0 => false | S _ => true end) && h_opt m then Ok (one_err (h_opt f) EOptF) else Ok []) = Ok []).
    { destruct j as [|j]; [reflexivity|]. cbn [andb]. destruct (h_opt m); [|reflexivity]. rewrite O2; auto. }
    rewrite E1. cbn [bind].
    assert (E2 : one_err (negb (h_opt f && negb (h_opt m))) EOptM = []). { rewrite one_err_nil. destruct (h_opt f), (h_opt m); auto. }
    rewrite E2. cbn [app]. assert (E3 : str_eqb fht (L "scheme") && negb (Nat.eqb j i) = false).
    { destruct (str_eqb fht (L "scheme")) eqn:Q; [|reflexivity]. apply str_eqb_eq in Q. rewrite (Od Q), Nat.eqb_refl. reflexivity. }
    rewrite E3. rewrite (proj2 (dims_comp_spec mh m f) (conj KD SR)). cbn [bind].
    apply comp_str_spec in T. apply comp_opt_spec in K. rewrite T, K. cbn [one_err app]. destruct (str_eqb (hd_type mh) (L "scheme")) eqn:Q; [|reflexivity].
    apply str_eqb_eq in Q. specialize (I Q). apply comp_opt_spec in I. rewrite I. reflexivity.
Qed.
Lemma count_app {A} (f : A -> bool) a b : count f (a ++ b) = count f a + count f b.
Proof. unfold count. now rewrite filter_app, app_length. Qed.
Lemma count_le {A} (f : A -> bool) l : count f l <= length l.
Proof. unfold count. induction l as [|x l IH]; cbn; [lia|]. destruct (f x); cbn; lia. Qed.
Lemma count_all {A} (f : A -> bool) l : count f l = length l <-> forall x, In x l -> f x = true.
Proof.
  induction l as [|x l IH]; [cbn; tauto|]. unfold count in *. cbn [List.filter length In]. pose proof (count_le f l) as B. unfold count in B. destruct (f x) eqn:E; cbn [length].
  - split; [intros H y [<-|I]; [exact E|apply IH; [lia|exact I]]|]. intros H. f_equal. apply IH. auto.
  - split; [lia|]. intros H. rewrite (H x (or_introl eq_refl)) in E. discriminate.
Qed.
Lemma count_none {A} (f : A -> bool) l : count f l = 0 <-> forall x, In x l -> f x = false.
Proof.
  induction l as [|x l IH]; [cbn; tauto|]. unfold count in *. cbn [List.filter In]. destruct (f x) eqn:E; cbn [length].
  - split; [lia|]. intros H. rewrite (H x (or_introl eq_refl)) in E. discriminate.
  - rewrite IH. split; [intros H y [<-|I]; auto|auto].
Qed.
Lemma mlen_plain mh : no_array_refs (hd_vars mh) -> mlen mh = length (hd_vars mh).
Proof. intros H. unfold mlen. apply count_all. intros v I. apply negb_true_iff, arr_false. auto. Qed.
Lemma F2_nth {A B} (R : A -> B -> Prop) l : forall l', length l <= length l' -> (forall k a, nth_error l k = Some a -> exists b, nth_error l' k = Some b /\ R a b) ->
  Forall2 R l (firstn (length l) l').
Proof.
  induction l as [|a l IH]; intros [|b l'] Len H; cbn [length firstn] in *; try constructor; try lia.
  - destruct (H 0 a eq_refl) as (b' & E & Rb). cbn in E. injection E as <-. exact Rb.
  - apply IH; [lia|]. intros k x N. apply (H (S k) x N).
Qed.
