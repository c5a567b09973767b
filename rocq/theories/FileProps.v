(* FileProps.v: properties C17, C18 and C51 (scripts/file_utils.py). *)
From Verif Require Import PyStr FileModel FileSpec FileProofs.
Open Scope nat_scope.
Open Scope list_scope.

(* [walk] lists the files of src_dir, and dest_dir has their directories *)
Definition complete_walk (s : mstate) (walk : list path) : Prop :=
  NoDup walk /\ forall p, In p walk <-> src s p <> None.

(* ---- C17 ---- *)
(* with overwrite: every generated file is in dest with the generated content,
   other files of dest are untouched, nothing is left in src *)
Theorem C17_overwrite_installs_everything :
  forall s walk has_dir remove_src,
    complete_walk s walk -> (forall p, In p walk -> has_dir p = true) ->
    NoDup (map basename walk) ->
    exists s', move_modified_files true remove_src false has_dir walk s = Ok s' /\
      (forall p c, src s p = Some c -> dest s' p = Some c) /\
      (forall p, src s p = None -> dest s' p = dest s p) /\
      (forall p, src s' p = None) /\ src_present s' = negb remove_src && src_present s.
Proof.
  intros s walk hd rm (ND & W) HD NB. unfold move_modified_files.
  assert (DB : dup_basename [] walk = false) by (apply dup_basename_spec; split; auto).
  rewrite DB. destruct (move_all_spec true hd walk s ND HD) as (s' & A & B & C & D & G & H & I).
  { intros p Hp. now apply W. }
  rewrite A. cbn [bind]. eexists. split; [reflexivity|].
  assert (X1 : forall p c, src s p = Some c -> dest s' p = Some c).
  { intros p c Hc. assert (In p walk) by (apply W; congruence). rewrite H by auto. rewrite Hc. now destruct (dest s p). }
  assert (X2 : forall p, src s p = None -> dest s' p = dest s p).
  { intros p Hc. apply G. intros K. apply W in K. contradiction. }
  assert (X3 : forall p, src s' p = None).
  { intros p. destruct (src s p) eqn:E.
    - apply C, W. congruence.
    - rewrite D; auto. intros K. apply W in K. contradiction. }
  destruct rm; cbn; auto.
Qed.
Print Assumptions C17_overwrite_installs_everything.

(* Without overwrite (the default), exactly: files missing in dest are installed;
   an existing file keeps its old content whatever was generated; the files
   (re)written are the new ones and the unchanged ones; src is emptied. *)
Theorem C17_default_partial :
  forall s walk has_dir remove_src,
    complete_walk s walk -> (forall p, In p walk -> has_dir p = true) ->
    NoDup (map basename walk) ->
    exists s', move_modified_files false remove_src false has_dir walk s = Ok s' /\
      (forall p, dest s p = None -> dest s' p = src s p) /\
      (forall p c, dest s p = Some c -> dest s' p = Some c) /\
      (forall p, src s' p = None) /\
      (forall p, In p (written s') <->
         In p (written s) \/ (src s p <> None /\ (dest s p = None \/ dest s p = src s p))).
Proof.
  intros s walk hd rm (ND & W) HD NB. unfold move_modified_files.
  assert (DB : dup_basename [] walk = false) by (apply dup_basename_spec; split; auto).
  rewrite DB. destruct (move_all_spec false hd walk s ND HD) as (s' & A & B & C & D & G & H & I).
  { intros p Hp. now apply W. }
  rewrite A. cbn [bind]. eexists. split; [reflexivity|].
  assert (X1 : forall p, dest s p = None -> dest s' p = src s p).
  { intros p Hc. destruct (src s p) eqn:E.
    - rewrite H by (apply W; congruence). now rewrite Hc.
    - rewrite G by (intros K; apply W in K; contradiction). exact Hc. }
  assert (X2 : forall p c, dest s p = Some c -> dest s' p = Some c).
  { intros p c Hc. destruct (src s p) eqn:E.
    - rewrite H by (apply W; congruence). now rewrite Hc.
    - rewrite G by (intros K; apply W in K; contradiction). exact Hc. }
  assert (X3 : forall p, src s' p = None).
  { intros p. destruct (src s p) eqn:E.
    - apply C, W. congruence.
    - rewrite D; auto. intros K. apply W in K. contradiction. }
  assert (X4 : forall p, In p (written s') <-> In p (written s) \/ (src s p <> None /\ (dest s p = None \/ dest s p = src s p))).
  { intros p. rewrite I, W. intuition congruence. }
  destruct rm; cbn; auto.
Qed.
Print Assumptions C17_default_partial.

(* Refuted: the comparison is inverted.  EVERY generated file that differs from
   the existing one is lost: dest keeps the old content and src is emptied. *)
Theorem C17_changed_file_is_discarded_refuted :
  forall s walk has_dir remove_src p old new,
    complete_walk s walk -> (forall p, In p walk -> has_dir p = true) ->
    NoDup (map basename walk) ->
    src s p = Some new -> dest s p = Some old -> old <> new ->
    exists s', move_modified_files false remove_src false has_dir walk s = Ok s' /\
      dest s' p = Some old /\ src s' p = None.
Proof.
  intros s walk hd rm p old new CW HD NB S1 D1 NE.
  destruct (C17_default_partial s walk hd rm CW HD NB) as (s' & A & B & C & D & _).
  exists s'. repeat split; auto.
Qed.
Print Assumptions C17_changed_file_is_discarded_refuted.

(* two generated files of one name are refused before anything is moved, and only
   then; nothing happens when the directories are the same *)
Theorem C17_duplicate_names :
  forall s walk has_dir overwrite remove_src,
    (move_modified_files overwrite remove_src true has_dir walk s = Ok s) /\
    (move_modified_files overwrite remove_src false has_dir walk s = Raise "CCPPError: Duplicate CCPP file found" <->
     ~ NoDup (map basename walk)).
Proof.
  intros s walk hd ow rm. split; [reflexivity|]. unfold move_modified_files.
  assert (K : dup_basename [] walk = false <-> NoDup (map basename walk)).
  { rewrite dup_basename_spec. split; [tauto|auto]. }
  destruct (dup_basename [] walk) eqn:E.
  - split; auto. intros _ N. apply K in N. discriminate.
  - split; [|intros N; exfalso; apply N, K; reflexivity].
    intros H. exfalso. clear K E.
    assert (G : forall walk s, move_all ow hd s walk <> Raise "CCPPError: Duplicate CCPP file found").
    { clear. induction walk as [|p r IH]; intros s; cbn [move_all]; [discriminate|].
      unfold move_one. destruct (match dest s p with Some _ => _ | None => _ end); [destruct (hd p)|]; cbn [bind]; auto. discriminate. }
    destruct (move_all ow hd s walk) as [a|e] eqn:E; cbn [bind] in H; [discriminate|].
    apply (G walk s). congruence.
Qed.
Print Assumptions C17_duplicate_names.

Definition ex_tree (l : list (path * str)) : tree :=
  fun p => match find (fun x => path_eqb (fst x) p) l with Some x => Some (snd x) | None => None end.
Definition ex_ms : mstate :=
  mkMS (ex_tree [([L "a.F90"], L "new a"); ([L "b.F90"], L "b"); ([L "c.F90"], L "c")])
       (ex_tree [([L "a.F90"], L "old a"); ([L "b.F90"], L "b"); ([L "z.F90"], L "z")]) [] true.
Definition ex_walk : list path := [[L "a.F90"]; [L "b.F90"]; [L "c.F90"]].
Example C17_example :
  complete_walk ex_ms ex_walk /\ NoDup (map basename ex_walk) /\
  (exists s', move_modified_files false true false (fun _ => true) ex_walk ex_ms = Ok s' /\
    map (dest s') (ex_walk ++ [[L "z.F90"]]) = [Some (L "old a"); Some (L "b"); Some (L "c"); Some (L "z")] /\
    written s' = [[L "b.F90"]; [L "c.F90"]]) /\
  dup_basename [] [[L "x"; L "a.F90"]; [L "y"; L "a.F90"]] = true.
Proof.
  split; [|split; [|split]].
  - split.
    + repeat (constructor; [cbn; intuition congruence|]). constructor.
    + intros p. split.
      * intros [<-|[<-|[<-|[]]]]; discriminate.
      * cbn [ex_ms src ex_tree]. unfold ex_tree. cbn [find fst snd].
        destruct (path_eqb [L "a.F90"] p) eqn:E1; [apply path_eqb_eq in E1; subst; now left|].
        destruct (path_eqb [L "b.F90"] p) eqn:E2; [apply path_eqb_eq in E2; subst; right; now left|].
        destruct (path_eqb [L "c.F90"] p) eqn:E3; [apply path_eqb_eq in E3; subst; right; right; now left|].
        intros K; now destruct K.
  - repeat (constructor; [vm_compute; intuition congruence|]). constructor.
  - eexists. split; [vm_compute; reflexivity|]. split; vm_compute; reflexivity.
  - vm_compute. reflexivity.
Qed.

(* ---- C18 ---- *)
Definition finite_fs (F : fsys) (U : list str) : Prop := forall p f, In f (fs_glob F p) -> In f U.

(* For every finite file system, whatever text files include each other (or
   themselves), a recursion of depth at most the number of files is enough. *)
Theorem C18_terminates :
  forall F U suffices files root, finite_fs F U ->
    exists r, forall fuel, length U < fuel -> create_file_list fuel F suffices files root = Some r.
Proof.
  intros F U suff files root HU.
  destruct (int_terminates F suff U HU (S (length U)) files root (mkAcc [] [] [])) as (a & E).
  { split; cbn; [constructor|intros x []]. }
  { cbn. lia. }
  exists (match a_errs a with [] => Ok (a_master a) | _ => Raise "CCPPError" end).
  intros fuel HL. unfold create_file_list.
  rewrite (int_fuel F suff (S (length U)) fuel files root _ a HL E). reflexivity.
Qed.
Print Assumptions C18_terminates.

(* The result has no duplicates and consists of exactly the files reached; an error
   is raised exactly when a reached entry has a problem. *)
Theorem C18_exact :
  forall fuel F suffices files root,
    (forall m, create_file_list fuel F suffices files root = Some (Ok m) ->
       NoDup m /\
       forall f, In f m <-> exists n r, reached F suffices files root n r /\ names_file F suffices n r f) /\
    (forall e, create_file_list fuel F suffices files root = Some (Raise e) ->
       exists n r f, reached F suffices files root n r /\ problem F suffices n r f) /\
    (forall m, create_file_list fuel F suffices files root = Some (Ok m) ->
       forall n r f, reached F suffices files root n r -> ~ problem F suffices n r f).
Proof.
  intros fuel F suff files root. unfold create_file_list.
  destruct (file_list_int fuel F suff files root (mkAcc [] [] [])) as [a|] eqn:E; [|repeat split; discriminate].
  apply int_spec in E as ((m & t & e & A & B & C & D1 & D2 & _) & ND & NT & DN & TD).
  cbn [a_master a_txt a_errs app] in *. subst m t e.
  assert (RD : forall n r, reached F suff files root n r -> done F suff a n r).
  { intros n r R. induction R as [n Hn|n r t n' R IH NL LE]; [auto|].
    destruct IH as (_ & K & _). specialize (K _ NL). destruct (TD _ K) as [[]|(_ & K2)]. auto. }
  assert (OKP : a_errs a = [] -> forall n r f, reached F suff files root n r -> ~ problem F suff n r f).
  { intros Z n r f R [(K & NG)|[(K & NG)|(K1 & K2 & ->)]].
    - destruct (RD n r R) as (X & _). destruct (X f K) as (_ & Y). specialize (Y NG). rewrite Z in Y. destruct Y.
    - destruct (RD n r R) as (_ & X & _). specialize (X f K). destruct (TD f X) as [[]|(Y & _)].
      specialize (Y NG). rewrite Z in Y. destruct Y.
    - destruct (RD n r R) as (_ & _ & X). specialize (X (conj K1 K2)). rewrite Z in X. destruct X. }
  split; [|split].
  - intros m H. destruct (a_errs a) eqn:Z; [|discriminate]. injection H as <-.
    split; [apply ND; constructor|]. intros f. split.
    + intros Hf. destruct (D1 f Hf) as (n & n' & r' & I1 & R1 & N1 & _). exists n', r'. split; [|exact N1].
      eapply reach_reached; eauto.
    + intros (n & r & R & N). destruct (RD n r R) as (X & _). destruct (X f N) as (Y & _). apply Y.
      assert (K : fs_exists F f = true /\ fs_readable F f = true \/ ~ good F f).
      { unfold good. destruct (fs_exists F f), (fs_readable F f); try tauto; right; intros [? ?]; discriminate. }
      destruct K as [K|K]; [exact K|]. exfalso. apply (OKP eq_refl n r f R). left. auto.
  - intros e0 H. destruct (a_errs a) as [|x es] eqn:Z; [discriminate|].
    destruct (D2 x (or_introl eq_refl)) as (n & n' & r' & I1 & R1 & P1). exists n', r', x. split; [|exact P1].
    eapply reach_reached; eauto.
  - intros m H. destruct (a_errs a) eqn:Z; [|discriminate]. now apply OKP.
Qed.
Print Assumptions C18_exact.

(* order of first occurrence: what the first entries contribute comes first, and
   the files of one plain entry are in the order they are found *)
Theorem C18_order :
  forall fuel F suffices files1 files2 root m,
    create_file_list fuel F suffices (files1 ++ files2) root = Some (Ok m) ->
    exists m1 m2, create_file_list fuel F suffices files1 root = Some (Ok m1) /\ m = m1 ++ m2.
Proof.
  intros [|fuel] F suff f1 f2 root m; unfold create_file_list; cbn [file_list_int]; [discriminate|].
  rewrite do_names_app. set (rec := fun n r a => file_list_int fuel F suff n r a).
  destruct (do_names F suff rec f1 root (mkAcc [] [] [])) as [a1|] eqn:E1; [|discriminate].
  destruct (do_names F suff rec f2 root a1) as [a2|] eqn:E2; [|discriminate].
  apply (do_names_spec F suff rec) in E2; [|intros; eapply int_spec; eauto].
  destruct E2 as ((m' & t & e & A & B & C & _) & _). rewrite C, A.
  destruct (a_errs a1); [|discriminate]. cbn [app]. destruct e; [|discriminate].
  intros H. injection H as <-. eauto.
Qed.
Print Assumptions C18_order.

Theorem C18_order_within_entry :
  forall fuel F suffices name root,
    fs_isdir F (full_name F name root) = false -> In (suffix_of name) suffices ->
    (forall f, In f (fs_glob F (full_name F name root)) -> good F f) ->
    NoDup (fs_glob F (full_name F name root)) ->
    create_file_list (S fuel) F suffices [name] root = Some (Ok (fs_glob F (full_name F name root))).
Proof.
  intros fuel F suff name root HD HS HG ND. unfold create_file_list. cbn [file_list_int do_names].
  unfold do_name. fold (full_name F name root). rewrite HD.
  assert (X : existsb (str_eqb (suffix_of name)) suff = true) by now apply existsb_str. rewrite X.
  assert (G : forall fs m, (forall f, In f fs -> good F f) -> NoDup (m ++ fs) -> add_unique F fs m [] = (m ++ fs, [])).
  { clear. induction fs as [|f r IH]; intros m HG ND; cbn [add_unique]; [now rewrite app_nil_r|].
    assert (C : (0 <? check_existing F f) = false) by (apply check_good, HG; now left). rewrite C.
    assert (X : existsb (str_eqb f) m = false).
    { apply existsb_str_false. intros K. apply NoDup_remove_2 in ND. apply ND. apply in_or_app. now left. }
    rewrite X. rewrite IH.
    - now rewrite <- app_assoc.
    - intros g Hg. apply HG. now right.
    - now rewrite <- app_assoc. }
  cbn [a_master a_errs]. rewrite (G _ []) by auto. reflexivity.
Qed.
Print Assumptions C18_order_within_entry.

(* a file system with two text files including each other and themselves *)
Definition ex_fs : fsys := mkFS
  (fun _ => false) (fun _ => true) (fun _ => true)
  (fun p => if existsb (str_eqb p) [L "/w/x.F90"; L "/w/y.F90"; L "/w/a.txt"; L "/w/b.txt"] then [p] else [])
  (fun t => if str_eqb t (L "/w/a.txt") then [L "x.F90"; L "# comment"; L ""; L " b.txt "]
            else [L "/w/a.txt"; L "b.txt"; L "y.F90"; L "x.F90"])
  (fun r n => r ++ L "/" ++ n) (fun _ => L "/w").
Example C18_example :
  finite_fs ex_fs [L "/w/x.F90"; L "/w/y.F90"; L "/w/a.txt"; L "/w/b.txt"] /\
  create_file_list 5 ex_fs [L "F90"] (names_of_string (L "a.txt, y.F90,a.txt")) (L "/w") = Some (Ok [L "/w/x.F90"; L "/w/y.F90"]) /\
  create_file_list 5 ex_fs [L "F90"] [L "none.txt"] (L "/w") = Some (Raise "CCPPError").
Proof.
  split; [|split; vm_compute; reflexivity].
  intros p f. cbn [ex_fs fs_glob]. destruct (existsb _ _) eqn:E; [|intros []].
  intros [<-|[]]. now apply existsb_str in E.
Qed.

(* ---- C51: a source file that is named but does not exist is reported ---- *)
(* Refuted: glob drops names that match nothing, so the existence check is never
   reached: for every missing file the list comes back empty, without an error. *)
Theorem C51_missing_file_is_silently_dropped_refuted :
  forall fuel F suffices name root,
    fs_isdir F (full_name F name root) = false -> In (suffix_of name) suffices ->
    fs_glob F (full_name F name root) = [] ->
    create_file_list (S fuel) F suffices [name] root = Some (Ok []).
Proof.
  intros fuel F suff name root HD HS HG.
  rewrite C18_order_within_entry; rewrite ?HG; auto. - intros f []. - constructor.
Qed.
Print Assumptions C51_missing_file_is_silently_dropped_refuted.

Example C51_example :
  suffix_of (L "no_such_scheme.F90") = L "F90" /\
  create_file_list 5 ex_fs [L "F90"] [L "no_such_scheme.F90"; L "x.F90"] (L "/w") = Some (Ok [L "/w/x.F90"]) /\
  map suffix_of [L "a/b.c/d"; L ".txt"; L "x.tar.gz"; L "..a.b"] = [[]; []; L "gz"; L "b"].
Proof. repeat split; vm_compute; reflexivity. Qed.
