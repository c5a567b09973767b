(* HdrProps.v: C95 (scheme arguments agree with their metadata), C96 (host and type tables),
   C97 (all routines of a file are paired), C98 (names are unique across files), C99 (clean),
   C100 (the Fortran file of a metadata file).  Models scripts/ccpp_capgen.py L53-118,
   L139-578. *)
From Verif Require Import Base PyStr ReqModel ReqProofs DictModel DictProofs CheckProofs LineProofs HdrModel HdrSpec HdrProofs.
From Coq Require Import Lia Permutation.
Open Scope nat_scope.
Open Scope list_scope.

(* ---------------- C95 ---------------- *)
(* If a scheme routine is accepted, its argument list is that of the metadata: same names in
   the same order, same types, kinds, intents and ranks; the arguments the metadata does not
   mention come last and are optional; and optional is declared exactly where the metadata
   says so, except that the first argument need not be. *)
Theorem C95_sound_partial mh fh : hd_type mh = L "scheme" -> hd_type fh = L "scheme" -> no_array_refs (hd_vars mh) -> compare_headers mh fh = Ok [] ->
  exists args extra, hd_vars fh = args ++ extra /\
    Forall2 (fun m f => declared_as m f /\ same_opt (h_intent m) (h_intent f) /\ known_dims mh f) (hd_vars mh) args /\
    Forall2 (fun m f => h_opt m = h_opt f) (tl (hd_vars mh)) (tl args) /\
    (forall m f, hd_error (hd_vars mh) = Some m -> hd_error args = Some f -> h_opt f = true -> h_opt m = true) /\
    forall f, In f extra -> h_opt f = true /\ ~ named_in (hd_vars mh) f.
Proof.
  intros TM TF NA H. unfold compare_headers in H. rewrite TM, TF, str_eqb_refl in H. cbn [negb] in H. change (extra_type (L "scheme")) with false in H. cbn [andb orb] in H.
  destruct (comp_vars _ _ _ _ _ _) as [es|] eqn:C; [|discriminate]. cbn [bind] in H. injection H as H. apply app_eq_nil in H as [O ->]. apply one_err_nil in O. rewrite orb_false_r in O. apply Nat.eqb_eq in O.
  rewrite (mlen_plain mh NA) in O. pose proof (proj1 (comp_vars_nil _ _ _ _ _ _) C) as P. clear C. cbn [Nat.add] in P. set (ms := hd_vars mh) in *. set (fl := hd_vars fh) in *.
  assert (Q : forall k m, nth_error ms k = Some m -> exists f, nth_error fl k = Some f /\
     (declared_as m f /\ same_opt (h_intent m) (h_intent f) /\ known_dims mh f) /\ (h_opt f = true -> h_opt m = true) /\ (k <> 0 -> h_opt m = true -> h_opt f = true)).
  { intros k m N. assert (Lt : k < flen mh fh) by (rewrite <- O; apply nth_error_Some; congruence).
    pose proof (P k m N) as V. apply comp_var_nil in V; [|exact Lt|apply NA; now apply nth_error_In in N].
    destruct V as (f & j & F & Od & T & K & I & SR & KD & O1 & O2). specialize (Od eq_refl). subst j. exists f. apply find_var_some in F as (_ & F & Sm & _). rewrite Nat.sub_0_r in F.
    split; [exact F|]. split; [|split; assumption]. split; [|split; [auto|exact KD]]. split; [unfold same_ci in *; congruence|auto]. }
  assert (Len : length ms <= length fl).
  { destruct (Nat.le_gt_cases (length ms) (length fl)) as [L'|L']; [exact L'|]. exfalso. destruct (nth_error ms (length fl)) as [m|] eqn:N; [|apply nth_error_None in N; lia].
    destruct (Q _ _ N) as (f & N' & _). assert (X : length fl < length fl) by (apply nth_error_Some; congruence). lia. }
  exists (firstn (length ms) fl), (skipn (length ms) fl). split; [symmetry; apply firstn_skipn|].
  assert (A : Forall2 (fun m f => declared_as m f /\ same_opt (h_intent m) (h_intent f) /\ known_dims mh f) ms (firstn (length ms) fl)).
  { apply F2_nth; [exact Len|]. intros k m N. destruct (Q k m N) as (f & N' & R & _). eauto. }
  split; [exact A|]. split; [|split].
  - destruct ms as [|m0 ms']; [constructor|]. destruct fl as [|f0 fl']; [cbn in Len; lia|]. cbn [tl length firstn]. apply F2_nth; [cbn in Len; lia|]. intros k m N.
    destruct (Q (S k) m N) as (f & N' & _ & O1 & O2). exists f. split; [exact N'|]. destruct (h_opt m), (h_opt f); auto; symmetry; auto.
  - intros m f Hm Hf. destruct ms as [|m0 ms']; [discriminate|]. destruct fl as [|f0 fl']; [discriminate|]. cbn in Hm, Hf. injection Hm as ->. injection Hf as ->.
    destruct (Q 0 m eq_refl) as (f' & N' & _ & O1 & _). cbn in N'. injection N' as <-. exact O1.
  - unfold flen in O. rewrite (mlen_plain mh NA) in O. fold ms fl in O. destruct (length ms <? length fl) eqn:Lt.
    + apply Nat.ltb_lt in Lt. set (g := fun f => match find_var (h_local f) ms 0 with None => h_opt f | Some _ => false end) in O.
      rewrite <- (firstn_skipn (length ms) fl), count_app in O. 
      assert (Z : count g (firstn (length ms) fl) = 0).
      { apply count_none. intros f If. unfold g. destruct (find_var (h_local f) ms 0) eqn:F; [reflexivity|]. rewrite find_var_none in F.
        clear -A If F. exfalso. induction A as [|m f' l l' (D & _) _ IH]; [destruct If|]. destruct If as [<-|If].
        - apply (F m); [now left|]. apply D.
        - apply IH; [exact If|]. intros v I. apply F. now right. }
      rewrite Z, app_length, firstn_length, skipn_length in O. rewrite Nat.min_l in O by exact Len.
      pose proof (count_le g (skipn (length ms) fl)) as B. rewrite skipn_length in B.
      assert (Eq : count g (skipn (length ms) fl) = length (skipn (length ms) fl)) by (rewrite skipn_length; lia).
      intros f If. rewrite count_all in Eq. specialize (Eq f If). unfold g in Eq. destruct (find_var (h_local f) ms 0) eqn:F; [discriminate|].
      split; [exact Eq|]. intros (v & I & Sm). rewrite find_var_none in F. now apply (F v).
    + apply Nat.ltb_ge in Lt. rewrite skipn_all2 by lia. intros f [].
Qed.
Print Assumptions C95_sound_partial.
(* Conversely such a routine is accepted, if its arguments have different names and its
   dimensions are integers or variables of the metadata. *)
Theorem C95_complete mh fh args extra : hd_type mh = L "scheme" -> hd_type fh = L "scheme" -> no_array_refs (hd_vars mh) -> distinct_names (hd_vars fh) ->
  hd_vars fh = args ++ extra ->
  Forall2 (fun m f => declared_as m f /\ same_opt (h_intent m) (h_intent f) /\ h_opt m = h_opt f /\ known_dims mh f) (hd_vars mh) args ->
  (forall f, In f extra -> h_opt f = true /\ ~ named_in (hd_vars mh) f) -> compare_headers mh fh = Ok [].
Proof.
  intros TM TF NA ND E A X. unfold compare_headers. rewrite TM, TF, str_eqb_refl. cbn [negb]. change (extra_type (L "scheme")) with false. cbn [andb]. rewrite orb_false_r.
  pose proof (F2_len _ _ _ A) as Len. rewrite (mlen_plain mh NA).
  assert (FL : flen mh fh = length (hd_vars mh)).
  { unfold flen. rewrite (mlen_plain mh NA), E, app_length. destruct (_ <? _) eqn:Lt; [|apply Nat.ltb_ge in Lt; lia].
    set (g := fun f => match find_var (h_local f) (hd_vars mh) 0 with None => h_opt f | Some _ => false end). rewrite count_app.
    assert (Z : count g args = 0).
    { apply count_none. intros f If. unfold g. destruct (find_var _ _ 0) eqn:F; [reflexivity|]. rewrite find_var_none in F.
      clear -A If F. exfalso. induction A as [|m f' l l' (D & _) _ IH]; [destruct If|]. destruct If as [<-|If]; [apply (F m); [now left|apply D]|].
      apply IH; [exact If|]. intros v I. apply F. now right. }
    assert (W : count g extra = length extra).
    { apply count_all. intros f If. unfold g. destruct (X f If) as [O N]. destruct (find_var _ _ 0) as [[v j]|] eqn:F; [|exact O].
      apply find_var_some in F as (_ & F & Sm & _). exfalso. apply N. exists v. split; [now apply nth_error_In in F|exact Sm]. }
    lia. }
  rewrite FL, Nat.eqb_refl. cbn [one_err].
  rewrite (proj2 (comp_vars_nil _ _ _ _ _ _)); [reflexivity|]. intros k m N. cbn [Nat.add].
  assert (Lt : k < length (hd_vars mh)) by (apply nth_error_Some; congruence).
  apply comp_var_nil; [exact Lt|apply NA; now apply nth_error_In in N|].
  assert (Y : exists f, nth_error args k = Some f /\ (declared_as m f /\ same_opt (h_intent m) (h_intent f) /\ h_opt m = h_opt f /\ known_dims mh f)).
  { clear -A N. revert k N. induction A as [|a b l l' R _ IH]; intros [|k] N; try discriminate; [cbn in N; injection N as <-; exists b; auto|]. apply IH. exact N. }
  destruct Y as (f & Nf & (Sm & T & K & SR) & I & O & KD). exists f, k.
  assert (Nf' : nth_error (hd_vars fh) k = Some f) by (rewrite E, nth_error_app1 by lia; exact Nf).
  rewrite (distinct_find _ _ _ ND Nf'); [|unfold same_ci in *; congruence]. rewrite O. repeat split; auto.
Qed.
Print Assumptions C95_complete.
(* Refuted: the dimensions are not compared, only their number.  Whatever the dimensions of
   an argument are in the metadata and in the Fortran source, if there are equally many the
   check passes. *)
Theorem C95_dims_refuted mh m f d d' : hd_type mh = L "scheme" -> hd_vars mh = [m] -> ~ In "("%char (h_local m) ->
  h_dims m = Some d -> length d' = length d -> (forall x item, In x d' -> In item (split_on ":" x) -> known_item mh item) ->
  f = mkH (h_local m) (h_std m) (h_type m) (h_kind m) (h_intent m) (h_opt m) (Some d') ->
  compare_headers mh (mkHd (hd_title mh) (L "scheme") [f]) = Ok [].
Proof.
  intros TM VM NA DM Len K ->. apply (C95_complete mh _ [mkH (h_local m) (h_std m) (h_type m) (h_kind m) (h_intent m) (h_opt m) (Some d')] []); auto.
  - intros v I. rewrite VM in I. destruct I as [<-|[]]. exact NA.
  - repeat constructor. intros [].
  - rewrite VM. assert (R : forall o : option str, same_opt o o) by (intros [x|]; cbn; reflexivity).
    repeat constructor; cbn; auto; try reflexivity.
    + exists d, d'. auto.
    + exists d'. split; [reflexivity|]. exact K.
Qed.
Print Assumptions C95_dims_refuted.
(* Refuted: a dimension that is neither an integer nor a variable of the metadata ends in an
   UnboundLocalError instead of a message, for any scheme whose other arguments are accepted. *)
Theorem C95_unknown_refuted mh m f d : hd_type mh = L "scheme" -> hd_vars mh = [m] -> ~ In "("%char (h_local m) -> h_opt m = h_opt f ->
  same_ci (h_local m) (h_local f) -> h_dims f = Some [d] -> ~ In ":"%char d -> d <> [] -> py_int d = None -> ~ same_ci (h_local m) d ->
  compare_headers mh (mkHd (hd_title mh) (L "scheme") [f]) = Raise "UnboundLocalError".
Proof.
  intros TM VM NA O Sm DF NC NE PI NS. unfold compare_headers. rewrite TM. cbn [hd_type hd_vars]. rewrite str_eqb_refl. cbn [negb].
  assert (ML : mlen mh = 1) by (rewrite mlen_plain; [now rewrite VM|intros v I; rewrite VM in I; destruct I as [<-|[]]; exact NA]).
  assert (FL : flen mh (mkHd (hd_title mh) (L "scheme") [f]) = 1) by (unfold flen; rewrite ML; reflexivity). rewrite ML, FL, VM. cbn [comp_vars].
  unfold comp_var. apply arr_false in NA. rewrite NA.
  assert (F : find_var (h_local m) [f] 0 = Some (f, 0)). { cbn. unfold same_ci in Sm. rewrite Sm, str_eqb_refl. reflexivity. }
  rewrite F. cbn [andb bind]. rewrite O. assert (E2 : one_err (negb (h_opt f && negb (h_opt f))) EOptM = []) by (now destruct (h_opt f)). rewrite E2. cbn [app negb andb Nat.leb Nat.eqb]. rewrite andb_false_r.
  apply comp_str_spec in Sm. rewrite Sm. cbn [negb]. unfold dims_comp, convert_dims. rewrite DF. cbn [map_res]. unfold conv_dim. rewrite split_none by exact NC. cbn [map_res].
  assert (CI : conv_item mh d = Raise "UnboundLocalError").
  { unfold conv_item. rewrite PI. destruct d as [|c d]; [congruence|]. rewrite VM. cbn [find_var]. assert (Q : str_eqb (lower (h_local m)) (lower (c :: d)) = false) by (apply str_eqb_neq; exact NS). rewrite Q. reflexivity. }
  rewrite CI. reflexivity.
Qed.
Print Assumptions C95_unknown_refuted.
Definition ex_m (local std ty : string) (opt : bool) (dims : list string) : hvar :=
  mkH (L local) (L std) (L ty) (Some (L "kind_phys")) (Some (L "in")) opt (Some (map L dims)).
(* Refuted: an optional first argument need not be optional in the Fortran source, *)
Theorem C95_first_optional_refuted : exists mh fh m f, hd_type mh = L "scheme" /\ hd_type fh = L "scheme" /\ hd_vars mh = [m] /\ hd_vars fh = [f] /\
  h_opt m = true /\ h_opt f = false /\ compare_headers mh fh = Ok [].
Proof.
  exists (mkHd (L "a_run") (L "scheme") [ex_m "x" "x_std" "real" true []]), (mkHd (L "a_run") (L "scheme") [ex_m "x" "x_std" "real" false []]).
  eexists. eexists. do 6 (split; [reflexivity|]). vm_compute. reflexivity.
Qed.
Print Assumptions C95_first_optional_refuted.
(* and an optional variable without a Fortran argument is an AttributeError. *)
Theorem C95_optional_missing_refuted : exists mh fh, hd_type mh = L "scheme" /\ hd_type fh = L "scheme" /\ compare_headers mh fh = Raise "AttributeError".
Proof. exists (mkHd (L "a_run") (L "scheme") [ex_m "x" "x_std" "real" true []]), (mkHd (L "a_run") (L "scheme") []). repeat split. Qed.
Print Assumptions C95_optional_missing_refuted.
Definition ex_mh : header := mkHd (L "a_run") (L "scheme") [ex_m "ncol" "horizontal_loop_extent" "integer" false []; ex_m "T" "air_temperature" "real" false ["horizontal_loop_extent"]; ex_m "q" "humidity" "real" true ["horizontal_loop_extent"]].
Definition ex_fh : header := mkHd (L "a_run") (L "scheme") [ex_m "NCOL" "f1" "INTEGER" false []; ex_m "t" "f2" "real" false ["ncol"]; ex_m "Q" "f3" "real" true ["1:ncol"]; ex_m "more" "f4" "real" true []].
Example C95_ex : compare_headers ex_mh ex_fh = Ok [].
Proof. vm_compute. reflexivity. Qed.
Example C95_ex_bad : compare_headers ex_mh (mkHd (L "a_run") (L "scheme") [ex_m "t" "f2" "real" false ["ncol"]; ex_m "NCOL" "f1" "real" false []; ex_m "q" "f3" "real" false ["ncol"; "ncol"]]) = Ok [EOrder; EOrder; EOptF; ERank].
Proof. vm_compute. reflexivity. Qed.
Example C95_ex_hyp : no_array_refs (hd_vars ex_mh) /\ distinct_names (hd_vars ex_fh).
Proof.
  split.
  - intros v [<-|[<-|[<-|[]]]]; cbn; intuition discriminate.
  - unfold distinct_names. cbn. repeat constructor; cbn; intuition discriminate.
Qed.

(* ---------------- C96 ---------------- *)
(* A module or derived-type table without array references: every variable of the metadata
   is declared, with the same type, kind and rank, in any order. *)
Theorem C96_declared_partial mh fh : hd_type mh = hd_type fh -> In (hd_type mh) [L "module"; L "ddt"] -> no_array_refs (hd_vars mh) -> compare_headers mh fh = Ok [] ->
  forall m, In m (hd_vars mh) -> exists f, In f (hd_vars fh) /\ declared_as m f.
Proof.
  intros TE T NA H m I. unfold compare_headers in H. rewrite TE, str_eqb_refl in H. cbn [negb] in H.
  destruct (comp_vars _ _ _ _ _ _) as [es|] eqn:C; [|discriminate]. cbn [bind] in H. injection H as H. apply app_eq_nil in H as [O ->]. apply one_err_nil in O.
  rewrite (mlen_plain mh NA) in O. assert (Le : length (hd_vars mh) <= flen mh fh).
  { apply orb_true_iff in O as [O|O]; [apply Nat.eqb_eq in O; lia|]. apply andb_true_iff in O as [_ O]. apply Nat.ltb_lt in O. lia. }
  apply In_nth_error in I as (k & N). pose proof (proj1 (comp_vars_nil _ _ _ _ _ _) C k m N) as V. cbn [Nat.add] in V.
  assert (Lt : k < length (hd_vars mh)) by (apply nth_error_Some; congruence).
  apply comp_var_nil in V; [|lia|apply NA; now apply nth_error_In in N].
  destruct V as (f & j & F & _ & Ty & K & _ & SR & _). apply find_var_some in F as (_ & F & Sm & _). exists f. split; [now apply nth_error_In in F|].
  split; [unfold same_ci in *; congruence|auto].
Qed.
Print Assumptions C96_declared_partial.
(* Refuted: a host table is never compared with its module, whatever they hold, *)
Theorem C96_host_refuted t t' ms fs : compare_headers (mkHd t (L "host") ms) (mkHd t' (L "module") fs) = Ok [].
Proof. reflexivity. Qed.
Print Assumptions C96_host_refuted.
(* and after n references to array elements the last n variables are only looked up. *)
Theorem C96_array_refuted : exists mh fh m f, hd_type mh = L "module" /\ hd_type fh = L "module" /\ compare_headers mh fh = Ok [] /\
  In m (hd_vars mh) /\ In f (hd_vars fh) /\ h_local m = h_local f /\ ~ same_ci (h_type m) (h_type f) /\ ~ same_rank m f.
Proof.
  exists (mkHd (L "m") (L "module") [ex_m "a(:,1)" "a1" "real" false ["horizontal_dimension"]; ex_m "a(:,2)" "a2" "real" false ["horizontal_dimension"]; ex_m "b" "bb" "integer" false []]).
  exists (mkHd (L "m") (L "module") [ex_m "a" "f1" "real" false [":"; ":"]; ex_m "b" "f2" "real" false [":"]]).
  exists (ex_m "b" "bb" "integer" false []), (ex_m "b" "f2" "real" false [":"]). split; [reflexivity|]. split; [reflexivity|]. split; [vm_compute; reflexivity|].
  split; [cbn; auto|]. split; [cbn; auto|]. split; [reflexivity|]. split; [discriminate|]. intros (a & b & A & B & Len). injection A as <-. injection B as <-. discriminate.
Qed.
Print Assumptions C96_array_refuted.
Example C96_ex : compare_headers (mkHd (L "m") (L "ddt") [ex_m "x" "s1" "real" false []; ex_m "y" "s2" "real" false []]) (mkHd (L "m") (L "ddt") [ex_m "y" "f1" "real" false []; ex_m "z" "f2" "real" false []; ex_m "X" "f3" "real" false []]) = Ok [].
Proof. vm_compute. reflexivity. Qed.

(* ---------------- C97 ---------------- *)
Lemma pop_perm t l x r : pop_title t l = Some (x, r) -> hd_title x = t /\ Permutation l (x :: r).
Proof.
  revert x r. induction l as [|h l IH]; intros x r E; cbn [pop_title] in E; [discriminate|]. destruct (str_eqb (hd_title h) t) eqn:Q.
  - injection E as <- <-. apply str_eqb_eq in Q. auto.
  - destruct (pop_title t l) as [[y r']|]; [|discriminate]. injection E as <- <-. destruct (IH y r' eq_refl) as [A B]. split; [exact A|].
    transitivity (h :: y :: r'); [now constructor|]. constructor.
Qed.
Lemma associate_inv ms : forall fs ps rest, associate ms fs = Ok (ps, rest) ->
  map fst ps = ms /\ Permutation fs (map snd ps ++ rest) /\ forall p, In p ps -> hd_title (fst p) = hd_title (snd p).
Proof.
  induction ms as [|m ms IH]; intros fs ps rest E; cbn [associate] in E; [injection E as <- <-; repeat split; auto; intros p []|].
  destruct (pop_title (hd_title m) fs) as [[f fs']|] eqn:P; [|discriminate]. destruct (associate ms fs') as [[ps' rest']|] eqn:A; [|discriminate]. cbn [bind fst snd] in E. injection E as <- <-.
  destruct (IH _ _ _ A) as (X & Y & Z). apply pop_perm in P as [T P]. cbn [map fst snd app]. split; [now rewrite X|]. split; [rewrite P; now constructor|].
  intros p [<-|I]; [cbn; congruence|auto].
Qed.
Lemma concat_nil {A} (l : list (list A)) : List.concat l = [] <-> forall x, In x l -> x = [].
Proof.
  induction l as [|y l IH]; cbn [List.concat In]; [split; [intros _ x []|reflexivity]|]. split.
  - intros E. apply app_eq_nil in E as [-> E]. intros x [<-|I]; [reflexivity|]. now apply (proj1 IH E).
  - intros H. rewrite (H y (or_introl eq_refl)). apply IH. auto.
Qed.
(* If a file is accepted, every metadata header is paired with a Fortran routine or type of the
   same name, no two with the same, each pair is found to agree, and what is left of the
   Fortran source has no variables. *)
Theorem C97_paired ms fs : check_file ms fs = Ok tt ->
  exists ps rest, map fst ps = ms /\ Permutation fs (map snd ps ++ rest) /\
    (forall m f, In (m, f) ps -> hd_title m = hd_title f /\ compare_headers m f = Ok []) /\ forall h, In h rest -> hd_vars h = [].
Proof.
  unfold check_file. destruct (associate ms fs) as [[ps rest]|] eqn:A; [|discriminate]. cbn [bind fst snd]. destruct (existsb _ rest) eqn:X; [discriminate|].
  destruct (map_res _ ps) as [es|] eqn:M; [|discriminate]. cbn [bind]. destruct (List.concat es) eqn:CN; [|discriminate]. intros _.
  destruct (associate_inv _ _ _ _ A) as (P & Q & R). exists ps, rest. split; [exact P|]. split; [exact Q|]. split.
  - intros m f I. split; [exact (R _ I)|]. apply map_res_inv in M. destruct (Forall2_in_l _ _ _ M _ I) as (e & Ie & E). cbn [fst snd] in E. rewrite E. f_equal. apply (proj1 (concat_nil es)); assumption.
  - intros h I. destruct (hd_vars h) eqn:V; [reflexivity|]. assert (Y : existsb (fun h => match hd_vars h with [] => false | _ => true end) rest = true) by (apply existsb_exists; exists h; rewrite V; auto). congruence.
Qed.
Print Assumptions C97_paired.
(* Conversely, when titles differ, matching headers that agree are accepted in any order. *)
Lemma pop_some t l h : In h l -> hd_title h = t -> NoDup (map hd_title l) -> exists r, pop_title t l = Some (h, r) /\ Permutation l (h :: r).
Proof.
  induction l as [|x l IH]; intros I T N; [destruct I|]. cbn [pop_title]. inversion N as [|? ? Nx N']; subst. destruct I as [->|I].
  - rewrite str_eqb_refl. eauto.
  - destruct (str_eqb (hd_title x) (hd_title h)) eqn:Q; [apply str_eqb_eq in Q; exfalso; apply Nx; rewrite Q; now apply in_map|].
    destruct (IH I eq_refl N') as (r & -> & P). exists (x :: r). split; [reflexivity|]. transitivity (x :: h :: r); [now constructor|constructor].
Qed.
Theorem C97_complete ms fs : NoDup (map hd_title ms) -> NoDup (map hd_title fs) ->
  (forall m, In m ms -> exists f, In f fs /\ hd_title f = hd_title m /\ compare_headers m f = Ok []) ->
  (forall f, In f fs -> hd_vars f <> [] -> In (hd_title f) (map hd_title ms)) -> check_file ms fs = Ok tt.
Proof.
  intros NM NF H R.
  assert (A : forall ms fs, NoDup (map hd_title ms) -> NoDup (map hd_title fs) -> (forall m, In m ms -> exists f, In f fs /\ hd_title f = hd_title m /\ compare_headers m f = Ok []) ->
     exists ps rest, associate ms fs = Ok (ps, rest) /\ (forall p, In p ps -> compare_headers (fst p) (snd p) = Ok []) /\ (forall f, In f rest -> In f fs /\ ~ In (hd_title f) (map hd_title ms))).
  { clear. induction ms as [|m ms IH]; intros fs NM NF H; cbn [associate]; [exists [], fs; repeat split; auto; intros p []|].
    inversion NM as [|? ? Nm NM']; subst. destruct (H m (or_introl eq_refl)) as (f & If & T & C). destruct (pop_some (hd_title m) fs f If T NF) as (r & -> & P).
    assert (NF' : NoDup (map hd_title (f :: r))) by (eapply Permutation_NoDup; [apply Permutation_map, P|exact NF]). inversion NF' as [|? ? Nf NF2]; subst.
    destruct (IH r NM' NF2) as (ps & rest & -> & X & Y).
    - intros m' I. destruct (H m' (or_intror I)) as (f' & If' & T' & C'). exists f'. split; [|auto]. apply (Permutation_in _ P) in If' as [<-|If']; [|exact If'].
      exfalso. apply Nm. rewrite <- T, T'. now apply in_map.
    - cbn [bind fst snd]. eexists. eexists. split; [reflexivity|]. split; [intros p [<-|I]; [exact C|auto]|]. intros g I. destruct (Y g I) as [Ig N]. split; [apply (Permutation_in _ (Permutation_sym P)); now right|].
      cbn [map In]. intros [E|J]; [|auto]. apply Nf. rewrite T, E. now apply in_map. }
  destruct (A ms fs NM NF H) as (ps & rest & E & X & Y). unfold check_file. rewrite E. cbn [bind fst snd].
  assert (Z : existsb (fun h => match hd_vars h with [] => false | _ => true end) rest = false).
  { apply not_true_iff_false. intros Q. apply existsb_exists in Q as (h & I & V). destruct (Y h I) as [Ih N]. apply N, R; [exact Ih|]. destruct (hd_vars h); [discriminate|discriminate]. }
  rewrite Z. assert (M : map_res (fun q => compare_headers (fst q) (snd q)) ps = Ok (map (fun _ => []) ps)).
  { clear -X. induction ps as [|p ps IH]; [reflexivity|]. cbn [map_res map]. rewrite (X p (or_introl eq_refl)). cbn [bind]. rewrite IH; [reflexivity|]. intros; apply X; now right. }
  rewrite M. cbn [bind]. assert (Cn : List.concat (map (fun _ : header * header => @nil err) ps) = []) by (clear; induction ps; cbn; auto). now rewrite Cn.
Qed.
Print Assumptions C97_complete.
Example C97_ex : check_file [ex_mh; mkHd (L "a_init") (L "scheme") []] [mkHd (L "a_init") (L "scheme") []; mkHd (L "helper") (L "scheme") []; ex_fh] = Ok tt.
Proof. vm_compute. reflexivity. Qed.

(* ---------------- C98 ---------------- *)
Lemma add_tables_inv last ts : forall d d', NoDup d -> add_tables last ts d = Ok d' -> d' = d ++ map fst ts /\ NoDup d'.
Proof.
  induction ts as [|[n hs] ts IH]; intros d d' N E; cbn [add_tables] in E; [injection E as <-; cbn; now rewrite app_nil_r|].
  destruct (mem n d) eqn:M; [destruct last as [t|]; [destruct (mem t d)|]; discriminate|]. apply mem_not in M.
  apply IH in E as [-> N']; [|now apply NoDup_snoc]. cbn [map fst]. split; [now rewrite <- app_assoc|exact N'].
Qed.
Lemma add_headers_inv hs : forall d d', NoDup (map hd_title d) -> add_headers hs d = Ok d' -> d' = d ++ hs /\ NoDup (map hd_title d').
Proof.
  induction hs as [|h hs IH]; intros d d' N E; cbn [add_headers] in E; [injection E as <-; now rewrite app_nil_r|].
  destruct (existsb _ d) eqn:X; [discriminate|]. apply IH in E as [-> N'].
  - split; [now rewrite <- app_assoc|exact N'].
  - rewrite map_app. apply NoDup_snoc; [exact N|]. intros I. apply in_map_iff in I as (x & T & I). assert (Y : existsb (fun x => str_eqb (hd_title x) (hd_title h)) d = true) by (apply existsb_exists; exists x; rewrite T, str_eqb_refl; auto). congruence.
Qed.
(* If all files are read, the result has all tables and headers in the order of the files,
   with no name twice, and every file agrees with its Fortran source. *)
Theorem C98_unique fs td hd : read_files fs None [] [] = Ok (td, hd) ->
  td = flat_map (fun f => map fst (pf_tables f)) fs /\ hd = flat_map mheaders fs /\ NoDup td /\ NoDup (map hd_title hd) /\
  forall f, In f fs -> check_file (mheaders f) (pf_fort f) = Ok tt.
Proof.
  assert (G : forall fs last t0 h0, NoDup t0 -> NoDup (map hd_title h0) -> read_files fs last t0 h0 = Ok (td, hd) ->
    td = t0 ++ flat_map (fun f => map fst (pf_tables f)) fs /\ hd = h0 ++ flat_map mheaders fs /\ NoDup td /\ NoDup (map hd_title hd) /\ forall f, In f fs -> check_file (mheaders f) (pf_fort f) = Ok tt).
  { clear. induction fs as [|f fs IH]; intros last t0 h0 N1 N2 E; cbn [read_files] in E.
    - injection E as <- <-. cbn. rewrite !app_nil_r. repeat split; auto. intros f [].
    - destruct (check_file _ _) as [[]|] eqn:C; [|discriminate]. cbn [bind] in E. destruct (add_tables _ _ _) as [t1|] eqn:A; [|discriminate]. cbn [bind] in E.
      destruct (add_headers _ _) as [h1|] eqn:B; [|discriminate]. cbn [bind] in E. apply add_tables_inv in A as [-> A]; [|exact N1]. apply add_headers_inv in B as [-> B]; [|exact N2].
      destruct (IH _ _ _ A B E) as (-> & -> & X & Y & Z). cbn [flat_map]. rewrite <- !app_assoc in *. repeat split; auto. intros g [<-|I]; auto. }
  intros E. apply G in E; [exact E|constructor|constructor].
Qed.
Print Assumptions C98_unique.
(* A table name that occurs twice never gets through. *)
Theorem C98_duplicate_refused fs : ~ NoDup (flat_map (fun f => map fst (pf_tables f)) fs) -> exists e, read_files fs None [] [] = Raise e.
Proof.
  intros D. destruct (read_files fs None [] []) as [[td hd]|e] eqn:E; [|eauto]. exfalso. apply D. destruct (C98_unique _ _ _ E) as (-> & _ & N & _). exact N.
Qed.
Print Assumptions C98_duplicate_refused.
(* But in the first file it is an UnboundLocalError, and later it can be a KeyError, not a message. *)
Theorem C98_finding_crash n hs fs : check_file (flat_map snd [(n, hs); (n, [])]) fs = Ok tt ->
  read_files [mkPF [(n, hs); (n, [])] fs] None [] [] = Raise "UnboundLocalError".
Proof. intros C. cbn [read_files mheaders pf_tables pf_fort]. unfold mheaders at 1. cbn [pf_tables]. rewrite C. cbn [bind add_tables mem existsb]. change (mem n []) with false. cbn [app]. unfold mem. cbn [existsb]. rewrite str_eqb_refl. reflexivity. Qed.
Print Assumptions C98_finding_crash.
Example C98_ex : exists td hd, read_files [mkPF [(L "a", [ex_mh])] [ex_fh]; mkPF [(L "b", [])] []] None [] [] = Ok (td, hd) /\ td = [L "a"; L "b"].
Proof. eexists. eexists. split; vm_compute; reflexivity. Qed.
Example C98_ex2 : check_file (flat_map snd [(L "a", [ex_mh]); (L "a", [])]) [ex_fh] = Ok tt.
Proof. vm_compute. reflexivity. Qed.
Example C98_ex3 : read_files [mkPF [(L "a", [ex_mh])] [ex_fh]; mkPF [(L "a", [])] []] None [] [] = Raise "KeyError".
Proof. vm_compute. reflexivity. Qed.

(* ---------------- C99 ---------------- *)
Lemma in_remove p fs q : In q (remove p fs) <-> In q fs /\ q <> p.
Proof. unfold remove. rewrite filter_In, negb_true_iff, str_eqb_neq. tauto. Qed.
Lemma clean_files_in root cap lines fs q : In q (clean_files root cap lines fs) <->
  In q fs /\ q <> cap /\ forall line, In line lines -> clean_path root line <> Some q.
Proof.
  unfold clean_files. rewrite in_remove.
  assert (G : forall l fs, In q (fold_left (fun fs l => match clean_path root l with Some p => remove p fs | None => fs end) l fs) <-> In q fs /\ forall line, In line l -> clean_path root line <> Some q).
  { clear. induction l as [|x l IH]; intros fs; cbn [fold_left]; [split; [intros I; split; [exact I|intros ? []]|tauto]|]. rewrite IH. destruct (clean_path root x) as [p|] eqn:P.
    - rewrite in_remove. split.
      + intros [[A B] C]. split; [exact A|]. intros line [<-|I]; [rewrite P; congruence|auto].
      + intros [A B]. split; [split; [exact A|]|intros line I; apply B; now right]. intros ->. apply (B x); [now left|exact P].
    - split; intros [A B]; (split; [exact A|]); [intros line [<-|I]; [rewrite P; discriminate|auto]|intros line I; apply B; now right]. }
  rewrite G. tauto.
Qed.
Lemma split_slash (a b : str) : split_on "/" (a ++ "/"%char :: b) = split_on "/" a ++ split_on "/" b.
Proof.
  induction a as [|c a IH]; cbn [app split_on]; [reflexivity|]. rewrite IH. destruct (Ascii.eqb c "/"); [reflexivity|].
  destruct (split_on "/" a) as [|x l] eqn:E; [now apply split_on_nonempty in E|reflexivity].
Qed.
Lemma walks_fun ps : forall d r, walks ps d r <-> r = rev (fold_left norm_step ps (rev d)).
Proof.
  induction ps as [|p ps IH]; intros d r; cbn [fold_left].
  - rewrite rev_involutive. split; [intros H; now inversion H|intros ->; constructor].
  - assert (Up : forall x d, norm_step (rev (d ++ [x])) (L "..") = rev d) by (intros x d'; rewrite rev_unit; reflexivity).
    split.
    + intros H. inversion H as [|? ? ? ? E W|x ? d' ? W|? ? W|? ? ? ? N1 N2 N3 W]; subst.
      * rewrite (proj1 (IH _ _) W). destruct E as [->| ->]; reflexivity.
      * rewrite (proj1 (IH _ _) W), Up. reflexivity.
      * rewrite (proj1 (IH _ _) W). reflexivity.
      * rewrite (proj1 (IH _ _) W). f_equal. f_equal. rewrite rev_unit. unfold norm_step. destruct p as [|c p]; [congruence|].
        rewrite (proj2 (str_eqb_neq _ _) N2), (proj2 (str_eqb_neq _ _) N3). reflexivity.
    + intros ->. destruct p as [|c p]; [apply walks_stay; [now left|now apply IH]|].
      unfold norm_step at 2. destruct (str_eqb (c :: p) (L ".")) eqn:E1; [apply str_eqb_eq in E1; apply walks_stay; [now right|now apply IH]|].
      destruct (str_eqb (c :: p) (L "..")) eqn:E2.
      * apply str_eqb_eq in E2. rewrite E2. destruct d as [|x d _] using rev_ind; [apply walks_top; now apply IH|].
        apply walks_up. rewrite rev_unit. now apply IH.
      * apply str_eqb_neq in E1, E2. apply walks_down; auto; [discriminate|]. apply IH. now rewrite rev_unit.
Qed.
Lemma names_file_fun root line q : names_file root line q <-> clean_path root line = Some q.
Proof.
  unfold names_file, clean_path. destruct (strip line) as [|c t]; [split; [intros (? & ? & ? & _); discriminate|discriminate]|].
  destruct (Ascii.eqb c "#" || Ascii.eqb c "!") eqn:E.
  - split; [|discriminate]. intros (c' & t' & H & A & B & _). injection H as <- <-. exfalso.
    apply orb_true_iff in E as [E|E]; apply Ascii.eqb_eq in E; auto.
  - apply orb_false_iff in E as [E1 E2]. apply Ascii.eqb_neq in E1, E2.
    assert (Ab : isabs (c :: t) = Ascii.eqb c "/").
    { unfold isabs, startswith. cbn [after_prefix L list_ascii_of_string]. unfold chr_eqb. destruct (Ascii.eqb_spec c "/") as [->|N]; [reflexivity|]. destruct (Ascii.eqb_spec "/" c) as [<-|_]; [congruence|reflexivity]. }
    rewrite Ab. split.
    + intros (c' & t' & H & _ & _ & H3). injection H as <- <-. f_equal. destruct (Ascii.eqb c "/"); [now symmetry|].
      destruct H3 as (r & W & ->). apply walks_fun in W. unfold normpath. change (root ++ L "/" ++ c :: t) with (root ++ "/"%char :: (c :: t)). rewrite split_slash. now subst r.
    + intros H. injection H as <-. exists c, t. split; [reflexivity|]. split; [exact E1|]. split; [exact E2|]. destruct (Ascii.eqb c "/"); [reflexivity|].
      eexists. split; [now apply walks_fun|]. unfold normpath. change (root ++ L "/" ++ c :: t) with (root ++ "/"%char :: (c :: t)). rewrite split_slash. reflexivity.
Qed.
(* A list of paths: every file named in it goes, and the list itself; nothing else does. *)
Theorem C99_list root cap lines fs q : In q (clean_files root cap lines fs) <->
  In q fs /\ q <> cap /\ ~ exists line, In line lines /\ names_file root line q.
Proof.
  rewrite clean_files_in. split; intros (A & B & C); repeat split; auto.
  - intros (line & I & N). apply names_file_fun in N. now apply (C line).
  - intros line I N. apply C. exists line. split; auto. now apply names_file_fun.
Qed.
Print Assumptions C99_list.
Lemma split_last s c : c <> "/"%char -> exists l x, split_on "/" (s ++ [c]) = l ++ [x ++ [c]].
Proof.
  intros NC. induction s as [|a s IH].
  - exists [], []. cbn. destruct (Ascii.eqb c "/") eqn:E; [apply Ascii.eqb_eq in E; congruence|reflexivity].
  - destruct IH as (l & x & E). cbn [app split_on]. rewrite E. destruct (Ascii.eqb a "/").
    + exists ([] :: l), x. reflexivity.
    + destruct l as [|y l]; cbn [app]; [exists [], (a :: x)|exists ((a :: y) :: l), x]; reflexivity.
Qed.
Lemma normpath_last s : exists q, normpath (s ++ [">"%char]) = q ++ [">"%char].
Proof.
  unfold normpath. destruct (split_last s ">"%char) as (l & x & E); [discriminate|]. rewrite E, fold_left_app. cbn [fold_left]. set (acc := fold_left norm_step l []).
  assert (N : norm_step acc (x ++ [">"%char]) = (x ++ [">"%char]) :: acc).
  { unfold norm_step. destruct (x ++ [">"%char]) as [|c r] eqn:Q; [destruct x; discriminate|]. rewrite <- Q. 
    assert (A : forall y, (forall z, y <> z ++ [">"%char]) -> str_eqb (x ++ [">"%char]) y = false) by (intros y H; apply str_eqb_neq; intros E'; now apply (H x)).
    rewrite !A; [reflexivity| |]; intros z H; destruct z as [|? [|? [|? z]]]; cbn in H; discriminate. }
  match goal with |- context [norm_step ?a _] => change a with acc end. rewrite N. cbn [rev]. generalize (rev acc). intros r. exists (L "/" ++ match r with [] => x | _ => join (L "/") r ++ L "/" ++ x end).
  destruct r as [|y r]; [cbn; reflexivity|]. rewrite <- app_assoc. f_equal. rewrite LineProofs.join_app by discriminate. cbn [join]. now rewrite <- !app_assoc.
Qed.
(* Refuted: the file given to clean is the datatable, an XML file.  When its lines are tags
   and no file has a name ending in >, clean removes the datatable and nothing else: all the
   generated files it lists are still there. *)
Theorem C99_datatable_refuted root cap lines fs : (forall line, In line lines -> strip line = [] \/ exists x, strip line = "<"%char :: x ++ [">"%char]) ->
  (forall f, In f fs -> ~ exists x, f = x ++ [">"%char]) -> forall q, In q (clean_files root cap lines fs) <-> In q fs /\ q <> cap.
Proof.
  intros HL HF q. rewrite clean_files_in. split; [tauto|]. intros [A B]. repeat split; auto. intros line I. unfold clean_path. destruct (HL line I) as [->|(x & ->)]; [discriminate|].
  cbn [Ascii.eqb orb]. change (Ascii.eqb "<" "#" || Ascii.eqb "<" "!") with false. cbn iota. change (isabs ("<"%char :: x ++ [">"%char])) with false. cbn iota.
  intros E. injection E as E. assert (N : exists y, normpath (root ++ L "/" ++ "<"%char :: x ++ [">"%char]) = y ++ [">"%char]).
  { replace (root ++ L "/" ++ "<"%char :: x ++ [">"%char]) with ((root ++ L "/" ++ "<"%char :: x) ++ [">"%char]) by (rewrite <- !app_assoc; reflexivity). apply normpath_last. }
  destruct N as (y & N). apply (HF q A). exists y. rewrite <- E. exact N.
Qed.
Print Assumptions C99_datatable_refuted.
Example C99_ex : clean_files (L "/b") (L "/b/list.txt") [L "  ccpp/../x_cap.F90  "; L "! comment"; L "/a/kinds.F90"] [L "/b/x_cap.F90"; L "/a/kinds.F90"; L "/a/keep.F90"; L "/b/list.txt"] = [L "/a/keep.F90"].
Proof. vm_compute. reflexivity. Qed.
Example C99_ex2 : clean_files (L "/b") (L "/b/datatable.xml") [L "<ccpp_datatable version=""1.0"">"; L "    <file>/b/x_cap.F90</file>"; L "</ccpp_datatable>"] [L "/b/x_cap.F90"; L "/b/datatable.xml"] = [L "/b/x_cap.F90"].
Proof. vm_compute. reflexivity. Qed.

(* ---------------- C100 ---------------- *)
Lemma rfind_spec s : forall i acc, rfind_dot s i acc = match rfind_dot s 0 None with Some k => Some (i + k) | None => acc end.
Proof.
  induction s as [|c s IH]; intros i acc; [reflexivity|]. cbn [rfind_dot]. rewrite (IH (S i)), (IH 1). destruct (rfind_dot s 0 None) as [k|]; [f_equal; lia|].
  destruct (Ascii.eqb c "."); [f_equal; lia|reflexivity].
Qed.
Lemma rfind_none s : rfind_dot s 0 None = None <-> ~ In "."%char s.
Proof.
  induction s as [|c s IH]; [cbn; tauto|]. cbn [rfind_dot]. rewrite rfind_spec. destruct (rfind_dot s 0 None) as [k|] eqn:E.
  - split; [discriminate|]. intros N. exfalso. assert (X : ~ In "."%char s) by (intros I; apply N; now right). apply IH in X. discriminate.
  - destruct (Ascii.eqb c ".") eqn:Q; [apply Ascii.eqb_eq in Q; subst; split; [discriminate|intros N; exfalso; apply N; now left]|].
    apply Ascii.eqb_neq in Q. split; [|reflexivity]. intros _ [->|I]; [congruence|]. now apply (proj1 IH eq_refl).
Qed.
Lemma rfind_base b e : ~ In "."%char e -> rfind_dot (b ++ "."%char :: e) 0 None = Some (length b).
Proof.
  intros N. induction b as [|c b IH]; cbn [app rfind_dot].
  - rewrite rfind_spec. rewrite (proj2 (rfind_none e) N). reflexivity.
  - rewrite rfind_spec, IH. cbn [length]. f_equal.
Qed.
(* The Fortran file of base.ext is the first of base.F90, base.f90, base.F and base.f that
   exists; if none does, the run stops. *)
Theorem C100_first (ex : str -> bool) base e : ~ In "."%char e ->
  (exists pre x post, [L "F90"; L "f90"; L "F"; L "f"] = pre ++ x :: post /\ ex (base ++ "."%char :: x) = true /\ (forall y, In y pre -> ex (base ++ "."%char :: y) = false) /\
     find_fortran ex (base ++ "."%char :: e) = Ok (base ++ "."%char :: x)) \/
  ((forall y, In y [L "F90"; L "f90"; L "F"; L "f"] -> ex (base ++ "."%char :: y) = false) /\ find_fortran ex (base ++ "."%char :: e) = Raise "CCPPError").
Proof.
  intros N. unfold find_fortran. rewrite (rfind_base _ _ N).
  assert (B : firstn (length base + 1) (base ++ "."%char :: e) = base ++ ["."%char]).
  { rewrite firstn_app, firstn_all2 by lia. replace (length base + 1 - length base) with 1 by lia. reflexivity. }
  rewrite B. clear B. change extensions with [L "F90"; L "f90"; L "F"; L "f"].
  assert (Q : forall y, (base ++ ["."%char]) ++ y = base ++ "."%char :: y) by (intros y; rewrite <- app_assoc; reflexivity).
  assert (G : forall l, (exists pre x post, l = pre ++ x :: post /\ ex (base ++ "."%char :: x) = true /\ (forall y, In y pre -> ex (base ++ "."%char :: y) = false) /\ List.find (fun y => ex ((base ++ ["."%char]) ++ y)) l = Some x) \/
      ((forall y, In y l -> ex (base ++ "."%char :: y) = false) /\ List.find (fun y => ex ((base ++ ["."%char]) ++ y)) l = None)).
  { induction l as [|z l IH]; [right; split; [intros y []|reflexivity]|]. cbn [List.find]. rewrite Q. destruct (ex (base ++ "."%char :: z)) eqn:Z.
    - left. exists [], z, l. repeat split; auto. intros y [].
    - destruct IH as [(pre & x & post & -> & A & B & C)|[A B]].
      + left. exists (z :: pre), x, post. repeat split; auto. intros y [<-|I]; auto.
      + right. split; [intros y [<-|I]; auto|exact B]. }
  destruct (G [L "F90"; L "f90"; L "F"; L "f"]) as [(pre & x & post & A & B & C & D)|[A B]].
  - left. exists pre, x, post. rewrite D, Q. auto.
  - right. split; [exact A|]. now rewrite B.
Qed.
Print Assumptions C100_first.
Example C100_ex : find_fortran (fun p => mem p [L "/s/a.b.F"; L "/s/a.b.f90"; L "/s/a.F90"]) (L "/s/a.b.meta") = Ok (L "/s/a.b.f90").
Proof. vm_compute. reflexivity. Qed.
