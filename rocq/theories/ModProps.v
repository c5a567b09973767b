(* ModProps.v: documented routines, types and module variables of Fortran files (C118-C121).
   Files are given by their lines, with one statement on each line. *)
From Verif Require Import PyStr Base LineSpec LineModel CheckModel PhaseProps DeclModel DeclSpec DeclProofs DeclHeads DeclBody DeclProps DeclMoreProps ModModel ModSpec ModProofs ModScan ModRun.
From Coq Require Import Lia Permutation.
Open Scope nat_scope.
Open Scope list_scope.

(* what the scanner makes of a file *)
Definition scan (logger : bool) (ls : list str) : res (list table * list str) := parse_fortran_file logger (map (fun s => [s]) ls).
Lemma scan_eq logger ls : ls <> [] -> scan logger ls = file_scan (S (length (toks ls))) logger (toks ls) [] None.
Proof. intros N. unfold scan, parse_fortran_file. destruct ls as [|s ls]; [easy|]. reflexivity. Qed.
Lemma file_end logger ls ts us f : elsewhere ls -> length (toks ls) < f -> file_scan f logger (toks ls) ts (Some us) = Ok (ts, us).
Proof.
  intros E LF. rewrite <- (app_nil_r (toks ls)). apply elsewhere_run; auto; [now rewrite app_nil_r|]. intros [|g] G; [cbn in G; lia|]. reflexivity.
Qed.
Lemma module_ne ls ts us : a_module ls ts us -> ls <> [].
Proof. intros (? & ? & ? & ? & ? & ? & ? & ? & -> & _). easy. Qed.

(* ---- C119: a file with one module ---- *)
Theorem C119_file : forall logger before ls after ts us, elsewhere before -> a_module ls ts us -> elsewhere after ->
  scan logger (before ++ ls ++ after) = Ok (ts, us).
Proof.
  intros logger before ls after ts us B M A. assert (N := module_ne _ _ _ M). rewrite scan_eq by (destruct before, ls; easy). rewrite !toks_app.
  apply elsewhere_run; auto. intros f LF. apply (file_module logger ls us ts M); auto. intros f' LF'. now apply file_end.
Qed.
Print Assumptions C119_file.

(* ---- C120: several modules ---- *)
Inductive file : list str -> list table -> list str -> Prop :=
| f_last b m a ts us : elsewhere b -> a_module m ts us -> elsewhere a -> file (b ++ m ++ a) ts us
| f_more b m ls ts us ts' us' : elsewhere b -> a_module m ts us -> file ls ts' us' -> file (b ++ m ++ ls) (ts ++ ts') us'.
Lemma file_ne ls ts us : file ls ts us -> ls <> [].
Proof. intros [b m a t u _ M _|b m l t u t' u' _ M _]; apply module_ne in M; destruct b, m; easy. Qed.
Lemma file_run logger ls ts us : file ls ts us -> forall f ts0 more, length (toks ls) < f -> file_scan f logger (toks ls) ts0 more = Ok (ts0 ++ ts, us).
Proof.
  induction 1 as [b m a ts us B M A|b m ls ts us ts' us' B M F IH]; intros f ts0 more LF; rewrite !toks_app in *.
  - apply elsewhere_run; auto. intros g G. apply (file_module logger m us ts M); auto. intros g' G'. now apply file_end.
  - apply elsewhere_run; auto. intros g G. apply (file_module logger m us ts M); auto. intros g' G'. rewrite IH by auto. now rewrite <- app_assoc.
Qed.
(* The tables of all modules are returned, in order, but only the other routines of the last
   module: [file] takes them from the last one. *)
Theorem C120_tables : forall logger ls ts us, file ls ts us -> scan logger ls = Ok (ts, us).
Proof. intros logger ls ts us F. rewrite scan_eq by now apply (file_ne ls ts us). now rewrite (file_run logger ls ts us F) by lia. Qed.
Print Assumptions C120_tables.
Theorem C120_refuted : forall logger m1 m2 ts1 ts2 us1 us2, a_module m1 ts1 us1 -> a_module m2 ts2 us2 -> scan logger (m1 ++ m2) = Ok (ts1 ++ ts2, us2).
Proof.
  intros logger m1 m2 ts1 ts2 us1 us2 M1 M2. apply C120_tables. change (m1 ++ m2) with ([] ++ m1 ++ m2). apply (f_more [] m1 m2 ts1 us1 ts2 us2); auto; [constructor|].
  rewrite <- (app_nil_r m2). change (m2 ++ []) with ([] ++ m2 ++ []). apply f_last; auto; constructor.
Qed.
Print Assumptions C120_refuted.

(* ---- C118: the arguments of a documented routine ---- *)
Lemma arranged (vs : list dvar) (names : list str) : Permutation (map key vs) names -> exists l, Permutation l vs /\ map key l = names.
Proof. intros P. destruct (Permutation_map_inv key vs (Permutation_sym P)) as (l & -> & Q). exists l. split; [now apply Permutation_sym|reflexivity]. Qed.
Lemma doc_bad logger m n args vs ls ts subs r : documented n args vs ls -> ~ (NoDup (map lower args) /\ Permutation (map key vs) (map lower args)) ->
  exists x, forall f insub, length (toks ls ++ r) < f -> module_scan f logger m m (toks ls ++ r) None insub false ts subs = Raise x.
Proof.
  intros (tb & d & g0 & g & s & b & i & e & -> & DD & IG & NC & G & RS & SA & A & I & E) N.
  destruct (scheme_bad logger m tb n args vs g s b i e r G RS SA A I E N) as (x & X). exists x. intros f insub LF.
  cbn [app] in *. rewrite !toks_cons in *. cbn [app length] in LF. destruct f as [|[|[|f]]]; [lia|lia|lia|]. destruct (document_facts tb d DD) as (D1 & _ & _). destruct (inside_facts g0 IG) as [G1 G2].
  cbn [app]. set (k := S (S f)). cbn [module_scan]. rewrite D1, andb_false_r, (table_yes tb d DD). unfold k. clear k. set (k := S f). cbn [module_scan]. unfold k; clear k. cbn [module_scan]. cbn [orb]. rewrite (contains_no g0 NC), andb_false_r. cbn [orb]. rewrite G1, G2.
  rewrite X. reflexivity.
Qed.
(* the prefix of a file up to a point after contains *)
Lemma prefix_run logger before s m sp c t1 b1 ts us R r : elsewhere before -> module_stmt m s -> specification m sp t1 -> begins (L "contains") c -> procedures m b1 ts us ->
  (forall f insub, length r < f -> module_scan f logger m m r None insub false (t1 ++ ts) us = R) ->
  (forall more, exists f, file_scan (S (length (toks (before ++ s :: sp ++ c :: b1) ++ r))) logger (toks (before ++ s :: sp ++ c :: b1) ++ r) [] more = 
     (p <- R ;; let '(r, t, l) := p in file_scan f logger r t (Some l)) /\ length (toks b1 ++ r) < f).
Proof.
  intros B MS SP C P GO more. rewrite toks_app, <- app_assoc. rewrite toks_cons. cbn [app].
  assert (X : forall f, length (St s :: NL :: toks (sp ++ c :: b1) ++ r) < S f -> file_scan (S f) logger (St s :: NL :: toks (sp ++ c :: b1) ++ r) [] more = (p <- R ;; let '(r, t, l) := p in file_scan f logger r t (Some l))).
  { intros f LF. cbn [file_scan]. rewrite (module_yes m s MS). assert (PM : parse_module logger m (NL :: toks (sp ++ c :: b1) ++ r) = R); [|rewrite PM; now destruct R as [[[? ?] ?]|]].
    unfold parse_module. cbn [length]. set (F := S (length (toks (sp ++ c :: b1) ++ r))). cbn [spec_scan]. unfold F; clear F. rewrite toks_app, <- app_assoc. rewrite toks_cons. cbn [app]. rewrite (specification_run logger m sp t1 SP); [|now apply contains_stop|lia]. cbn [bind fst snd].
    cbn [length]. set (F := S (length (toks b1 ++ r))). cbn [module_scan]. unfold F; clear F. apply (procedures_run logger m b1 ts us P); auto. }
  assert (Y : forall ls, elsewhere ls -> forall f0 T, length (toks ls ++ T) <= f0 -> exists f, length T <= f /\ file_scan (S f0) logger (toks ls ++ T) [] more = file_scan (S f) logger T [] more).
  { clear. induction 1 as [|x ls N F IH]; intros f0 T LF; [exists f0; cbn in LF; auto|]. rewrite toks_cons in *. cbn [app length] in LF. destruct f0 as [|[|f0]]; [lia|lia|]. destruct (IH f0 T) as (f & L1 & E); [lia|]. exists f. split; auto. cbn [app]. set (k := S (S f0)). cbn [file_scan]. rewrite (module_no x N). unfold k; clear k. set (k := S f0). cbn [file_scan]. unfold k. exact E. }
  destruct (Y before B (length (toks before ++ St s :: NL :: toks (sp ++ c :: b1) ++ r)) (St s :: NL :: toks (sp ++ c :: b1) ++ r)) as (f & LF & E); [lia|]. exists f. split; [rewrite E; apply X; lia|].
  cbn [length] in LF. rewrite toks_app, toks_cons, !app_length in LF. cbn [length] in LF. rewrite app_length. lia.
Qed.
Lemma rejected logger ls x : ls <> [] -> (forall more, file_scan (S (length (toks ls))) logger (toks ls) [] more = Raise x) -> scan logger ls = Raise x.
Proof. intros N H. rewrite scan_eq by auto. apply H. Qed.
(* In a file of the right form, a documented routine gives a table with exactly its dummy
   arguments, in order, each as it is declared, if each is declared once with an intent and
   nothing else is; in every other case the file is rejected. *)
Theorem C118_arguments : forall logger before s m sp c b1 n args vs doc b2 e after t1 ts1 us1 ts2 us2,
  elsewhere before -> module_stmt m s -> specification m sp t1 -> begins (L "contains") c -> procedures m b1 ts1 us1 ->
  documented n args vs doc -> procedures m b2 ts2 us2 -> end_module m e -> elsewhere after ->
  (NoDup (map lower args) /\ Permutation (map (fun v => lower (dv_name v)) vs) (map lower args) ->
   exists t, scheme_table m n args vs t /\
     scan logger (before ++ (s :: sp ++ c :: (b1 ++ doc ++ b2) ++ [e]) ++ after) = Ok (t1 ++ ts1 ++ t :: ts2, us1 ++ us2)) /\
  (~ (NoDup (map lower args) /\ Permutation (map (fun v => lower (dv_name v)) vs) (map lower args)) ->
   exists msg, scan logger (before ++ (s :: sp ++ c :: (b1 ++ doc ++ b2) ++ [e]) ++ after) = Raise msg).
Proof.
  intros logger before s m sp c b1 n args vs doc b2 e after t1 ts1 us1 ts2 us2 B MS SP C P1 D P2 EM A. split.
  - intros [N P]. destruct (arranged vs (map lower args) P) as (l & PL & KL). exists (mkT n "scheme" m l).
    assert (ST : scheme_table m n args vs (mkT n "scheme" m l)) by (split; [reflexivity|split; [reflexivity|split; [reflexivity|split; [exact PL|exact KL]]]]). split; auto.
    apply C119_file; auto. exists m, s, sp, c, (b1 ++ doc ++ b2), e, t1, (ts1 ++ mkT n "scheme" m l :: ts2). split; auto. split; auto. split; auto. split; auto. split; auto.
    assert (P3 : procedures m (doc ++ b2) (mkT n "scheme" m l :: ts2) us2) by (apply (r_doc m n args vs doc); auto). clear - P1 P3. set (tt := mkT n "scheme" m l :: ts2) in *. clearbody tt. set (bb := doc ++ b2) in *. clearbody bb.
    induction P1 as [|x ls ts us X P IH|n1 a1 v1 x t ls ts us X Y Z P IH|n1 x ls ts us X P IH]; cbn [app]; auto.
    + constructor; auto.
    + rewrite <- app_assoc. apply (r_doc m n1 a1 v1); auto.
    + rewrite <- app_assoc. now constructor.
  - intros N. destruct (doc_bad logger m n args vs doc (t1 ++ ts1) us1 (toks b2 ++ toks [e] ++ toks after) D N) as (x & X). exists x. apply rejected; [now destruct before|]. intros more.
    assert (EL : before ++ (s :: sp ++ c :: (b1 ++ doc ++ b2) ++ [e]) ++ after = (before ++ s :: sp ++ c :: b1) ++ doc ++ b2 ++ [e] ++ after) by (rewrite <- !app_assoc; cbn [app]; rewrite <- !app_assoc; cbn [app]; rewrite <- !app_assoc; reflexivity).
    rewrite EL. clear EL. rewrite toks_app. replace (toks (doc ++ b2 ++ [e] ++ after)) with (toks doc ++ toks b2 ++ toks [e] ++ toks after) by now rewrite !toks_app.
    destruct (prefix_run logger before s m sp c t1 b1 ts1 us1 (Raise x) (toks doc ++ toks b2 ++ toks [e] ++ toks after) B MS SP C P1 X more) as (f & -> & _). reflexivity.
Qed.
Print Assumptions C118_arguments.

(* ---- C121: what is not understood ---- *)
(* the name at the end of the module must be written as at its start: another case is an error *)
Theorem C121_named_end_refuted : forall logger before s m sp c b e after n t1 t2 us,
  elsewhere before -> module_stmt m s -> specification m sp t1 -> begins (L "contains") c -> procedures m b t2 us -> end_module n e -> n <> m ->
  exists msg, scan logger (before ++ (s :: sp ++ c :: b ++ [e]) ++ after) = Raise msg.
Proof.
  intros logger before s m sp c b e after n t1 t2 us B MS SP C P EM NE. eexists. apply rejected; [now destruct before|]. intros more.
  assert (EL : before ++ (s :: sp ++ c :: b ++ [e]) ++ after = (before ++ s :: sp ++ c :: b) ++ [e] ++ after) by (rewrite <- !app_assoc; cbn [app]; rewrite <- !app_assoc; cbn [app]; rewrite <- !app_assoc; reflexivity).
  rewrite EL. clear EL. rewrite toks_app. destruct (prefix_run logger before s m sp c t1 b t2 us (Raise "ParseContextError: Trying to exit") (toks ([e] ++ after)) B MS SP C P) with (more := more) as (f & -> & _); [|reflexivity].
  intros f insub LF. cbn [app] in *. rewrite toks_cons in *. destruct f as [|f]; [cbn in LF; lia|]. destruct (end_module_facts n e EM) as (A & BB & _). cbn [module_scan]. rewrite BB, andb_false_r, A, (endmod_yes n e EM). cbn [orb].
  assert (X : str_eqb n m = false) by now apply str_eqb_neq. now rewrite X.
Qed.
Print Assumptions C121_named_end_refuted.
(* if the subroutine statement follows its announcement immediately it is not seen *)
Theorem C121_immediate_refuted : forall logger before s m sp c b d t n args st body e after t1 t2 us,
  elsewhere before -> module_stmt m s -> specification m sp t1 -> begins (L "contains") c -> procedures m b t2 us ->
  documents t d -> routine n args st -> Forall between body -> end_module m e ->
  exists msg, scan logger (before ++ (s :: sp ++ c :: b ++ d :: st :: body ++ [e]) ++ after) = Raise msg.
Proof.
  intros logger before s m sp c b d t n args st body e after t1 t2 us B MS SP C P D R F EM. eexists. apply rejected; [now destruct before|]. intros more.
  assert (EL : before ++ (s :: sp ++ c :: b ++ d :: st :: body ++ [e]) ++ after = (before ++ s :: sp ++ c :: b) ++ d :: st :: body ++ [e] ++ after) by (rewrite <- !app_assoc; cbn [app]; rewrite <- !app_assoc; cbn [app]; rewrite <- !app_assoc; cbn [app]; rewrite <- !app_assoc; reflexivity).
  rewrite EL. clear EL. rewrite toks_app. destruct (prefix_run logger before s m sp c t1 b t2 us (Raise "CCPPError: Subroutine not found") (toks (d :: st :: body ++ [e] ++ after)) B MS SP C P) with (more := more) as (f & -> & _); [|reflexivity].
  intros f insub LF. rewrite !toks_cons in *. cbn [app length] in LF. destruct f as [|[|[|f]]]; [lia|lia|lia|]. destruct (document_facts t d D) as (D1 & _ & _). destruct (routine_facts n args st R) as (R1 & R2 & _ & R4).
  set (k := S (S f)). cbn [module_scan]. rewrite D1, andb_false_r, (table_yes t d D). unfold k. clear k. set (k := S f). cbn [module_scan]. unfold k; clear k. cbn [module_scan orb]. rewrite R4, andb_false_r, R1, R2. cbn [orb].
  unfold parse_scheme_metadata. cbn [scheme_scan z_insub]. rewrite toks_app. rewrite gap_run by auto. cbn [app]. rewrite toks_cons. destruct (end_module_facts m e EM) as (A & BB & _).
  cbn [scheme_scan z_insub z_seen z_pre z_name z_dict andb orb]. rewrite BB, A, (endmod_yes m e EM). reflexivity.
Qed.
Print Assumptions C121_immediate_refuted.
(* a file without modules is an error *)
Theorem C121_no_module_refuted : forall logger ls, elsewhere ls -> exists msg, scan logger ls = Raise msg.
Proof.
  intros logger ls E. destruct ls as [|s ls]; [exists "AttributeError"%string; reflexivity|]. eexists. rewrite scan_eq by easy. rewrite <- (app_nil_r (toks (s :: ls))) at 2. apply elsewhere_run; auto; [rewrite app_nil_r; lia|].
  intros [|f] LF; [cbn in LF; lia|]. reflexivity.
Qed.
Print Assumptions C121_no_module_refuted.
(* the end of a module must be written with its name: otherwise the tables of the next module
   are filed under the first one, or the file is rejected *)
Lemma plain_stmts n : identifier n -> module_stmt n (L "module " ++ n) /\ end_module n (L "end module " ++ n) /\ documents n (L "!> \section arg_table_" ++ n) /\ routine n [] (L "subroutine " ++ n).
Proof.
  intros H. split; [exists [], (L "module"), (L " "), []; rewrite app_nil_r; repeat split; easy|]. split; [exists [], (L "end"), (L " "), (L "module"), (L " "), []; rewrite app_nil_r; repeat split; easy|].
  split; [exists [], (L ">"), (L " "), (L "\section"), (L " "), (L "arg_table_"), []; rewrite app_nil_r; split; [reflexivity|]; split; [reflexivity|]; split; [now right|]; split; [reflexivity|]; split; [now right|]; split; [reflexivity|]; split; [reflexivity|]; split; [exact H|exact I]|].
  exists [], [], [], (L "subroutine"), (L " "), []. rewrite app_nil_r. split; [reflexivity|]. split; [reflexivity|]. split; [now left|]. split; [reflexivity|]. split; [reflexivity|]. split; [reflexivity|]. split; [easy|]. split; auto.
  left. split; auto. exists [], []. split; [reflexivity|]. split; [reflexivity|]. now left.
Qed.
Lemma module_line_calm b : calm (L "module " ++ b).
Proof.
  assert (M : spells (L "module") (L "module")) by reflexivity. change (L "module " ++ b) with ([] ++ L "module" ++ (L " " ++ b)).
  destruct (word_line [] (L "module") (L " " ++ b) _ _ eq_refl M eq_refl) as [A _]. destruct (word_endmod [] (L "module") (L " " ++ b) _ _ eq_refl M eq_refl eq_refl) as (D & _ & _).
  pose proof (word_sub [] (L "module") (L " " ++ b) _ _ eq_refl M eq_refl eq_refl eq_refl eq_refl eq_refl) as F. pose proof (word_contains [] (L "module") (L " " ++ b) _ _ eq_refl M eq_refl eq_refl) as G.
  split; [exact A|split; [exact D|split; [exact F|exact G]]].
Qed.
Lemma pass_line logger m ts subs s r R : table_match s = None -> endmod_match s = None -> sub_match s = None ->
  (forall f insub seen, length r < f -> module_scan f logger m m r None insub seen ts subs = R) ->
  forall f insub seen, length (St s :: NL :: r) < f -> module_scan f logger m m (St s :: NL :: r) None insub seen ts subs = R.
Proof.
  intros A B C GO f insub seen LF. cbn [length] in LF. destruct f as [|[|f]]; [lia|lia|]. set (k := S f). cbn [module_scan]. rewrite A, B, C. unfold k.
  destruct (endsub_match s); [destruct (seen || insub && contains_match s)%bool|]; cbn [module_scan]; apply GO; lia.
Qed.
Theorem C121_bare_end_refuted : forall logger a b f, identifier a -> identifier b -> identifier f ->
  scan logger [L "module " ++ a; L "contains"; L "end module"; L "module " ++ b; L "contains"; L "!> \section arg_table_" ++ f; L "!!"; L "subroutine " ++ f; L "end subroutine"; L "end module"]
    = Ok ([mkT f "scheme" a []], []) /\
  (a <> b -> exists msg, scan logger [L "module " ++ a; L "contains"; L "end module"; L "module " ++ b; L "contains"; L "end module " ++ b] = Raise msg).
Proof.
  intros logger a b f IA IB IF. destruct (plain_stmts a IA) as (MA & _). destruct (plain_stmts b IB) as (MB & EB & _). destruct (plain_stmts f IF) as (_ & _ & DF & RF). destruct (module_line_calm b) as (B1 & B2 & B3 & B4).
  assert (C0 : begins (L "contains") (L "contains")) by (exists [], (L "contains"), []; repeat split; easy).
  assert (SP0 : specification a [] []) by (constructor; constructor). assert (EE : end_of (L "subroutine") (L "end subroutine")) by (exists [], (L "end"), (L " "), (L "subroutine"), []; repeat split).
  assert (X : forall (R : res (list tok * list table * list str)) r more, 
    (forall f0 insub seen, length (toks r) < f0 -> module_scan f0 logger a a (toks r) None insub seen [] [] = R) ->
    exists g, 0 < g /\ file_scan (S (length (toks ([L "module " ++ a; L "contains"; L "end module"; L "module " ++ b; L "contains"] ++ r)))) logger (toks ([L "module " ++ a; L "contains"; L "end module"; L "module " ++ b; L "contains"] ++ r)) [] more =
      (p <- R ;; let '(r, t, l) := p in file_scan g logger r t (Some l))).
  { intros R r more GO. destruct (prefix_run logger [] (L "module " ++ a) a [] (L "contains") [] [] [] [] R (toks ([L "end module"; L "module " ++ b; L "contains"] ++ r))) with (more := more) as (g & E & LG); auto; [constructor|constructor| |exists g; split; [lia|exact E]].
    intros f0 insub LF. cbn [app] in *. rewrite !toks_cons in *. apply pass_line; [reflexivity|reflexivity|reflexivity| |exact LF]. apply pass_line; auto. apply pass_line; [reflexivity|reflexivity|reflexivity|]. exact GO. }
  split.
  - change (scan logger ([L "module " ++ a; L "contains"; L "end module"; L "module " ++ b; L "contains"] ++ [L "!> \section arg_table_" ++ f; L "!!"; L "subroutine " ++ f; L "end subroutine"; L "end module"]) = Ok ([mkT f "scheme" a []], [])).
    rewrite scan_eq by easy. destruct (X (Ok ([], [mkT f "scheme" a []], [])) [L "!> \section arg_table_" ++ f; L "!!"; L "subroutine " ++ f; L "end subroutine"; L "end module"] None) as (g & G & ->); [|destruct g; [lia|reflexivity]].
    intros f0 insub seen LF. rewrite !toks_cons in *. change (toks []) with (@nil tok) in *. cbn [length] in LF. destruct f0 as [|[|[|f0]]]; [lia|lia|lia|]. destruct (document_facts f _ DF) as (D1 & _ & _).
    set (k := S (S f0)). cbn [module_scan]. rewrite D1, andb_false_r, (table_yes f _ DF). unfold k. clear k. set (k := S f0). cbn [module_scan]. unfold k; clear k. cbn [module_scan].
    assert (T1 : table_match (L "!!") = None) by reflexivity. assert (T2 : endmod_match (L "!!") = None) by reflexivity. rewrite T1, T2.
    assert (TS : scheme_table a f [] [] (mkT f "scheme" a [])) by (split; [reflexivity|split; [reflexivity|split; [reflexivity|split; [constructor|reflexivity]]]]).
    destruct (scheme_good logger a f f [] [] [] (L "subroutine " ++ f) [] [] (L "end subroutine") [St (L "end module"); NL] (mkT f "scheme" a []) (Forall_nil _) RF eq_refl a_nil (or_introl eq_refl) EE (NoDup_nil _) TS) as (q & Q & QL & E).
    change (NL :: toks ([] ++ (L "subroutine " ++ f) :: [] ++ [] ++ [L "end subroutine"]) ++ [St (L "end module"); NL]) with [NL; St (L "subroutine " ++ f); NL; St (L "end subroutine"); NL; St (L "end module"); NL] in E. rewrite E. cbn [bind].
    clear E. assert (Z : forall f1 i s, length (toks q ++ [St (L "end module"); NL]) < f1 -> module_scan f1 logger a a (toks q ++ [St (L "end module"); NL]) None i s ([] ++ [mkT f "scheme" a []]) [] = Ok ([], [mkT f "scheme" a []], [])).
    { clear - Q. induction Q as [|x q (Q1 & Q2 & Q3 & Q4) Q IH]; intros f1 i s LF.
      - change (toks [] ++ [St (L "end module"); NL]) with [St (L "end module"); NL] in *. apply (pass_line logger a _ [] (L "end module") []); auto. intros [|f2] i2 s2 L2; [cbn in L2; lia|reflexivity].
      - rewrite toks_cons in *. cbn [app] in *. now apply pass_line. }
    apply Z. rewrite app_length, toks_len. cbn [length] in *. lia.
  - intros NE. exists "ParseContextError: Trying to exit"%string. change (scan logger ([L "module " ++ a; L "contains"; L "end module"; L "module " ++ b; L "contains"] ++ [L "end module " ++ b]) = Raise "ParseContextError: Trying to exit").
    rewrite scan_eq by easy. destruct (X (Raise "ParseContextError: Trying to exit") [L "end module " ++ b] None) as (g & G & ->); [|reflexivity].
    intros f0 insub seen LF. rewrite toks_cons in *. destruct f0 as [|f0]; [cbn in LF; lia|]. destruct (end_module_facts b _ EB) as (A1 & A2 & _). cbn [module_scan]. rewrite A1, (endmod_yes b _ EB). assert (Y : str_eqb b a = false) by (apply str_eqb_neq; congruence). now rewrite Y.
Qed.
Print Assumptions C121_bare_end_refuted.
(* a module without procedures is never left: a second module in the file is an error *)
Theorem C121_no_contains : forall logger before s m sp e after t1, elsewhere before -> module_stmt m s -> specification m sp t1 -> end_module m e -> Forall between after ->
  scan logger (before ++ (s :: sp ++ [e]) ++ after) = Ok (t1, []).
Proof.
  intros logger before s m sp e after t1 B MS SP EM A. rewrite scan_eq by now destruct before. rewrite !toks_app. apply elsewhere_run; auto. intros f LF. rewrite toks_cons in *. cbn [app] in *. destruct f as [|f]; [lia|]. cbn [file_scan]. rewrite (module_yes m s MS).
  assert (PM : parse_module logger m (NL :: toks (sp ++ [e]) ++ toks after) = Ok ([], t1, [])); [|rewrite PM; cbn [bind]; destruct f as [|f]; [cbn [length] in LF; lia|reflexivity]].
  unfold parse_module. rewrite toks_app, <- app_assoc, toks_cons. cbn [app length]. change (toks [] ++ toks after) with (toks after). set (F := S (length (toks sp ++ St e :: NL :: toks after))). cbn [spec_scan]. unfold F; clear F. rewrite (specification_run logger m sp t1 SP); [|now apply (end_stop m)|lia]. cbn [bind fst snd].
  cbn [length]. set (F := S (length (toks after))). cbn [module_scan]. unfold F; clear F. rewrite <- (app_nil_r (toks after)). rewrite (calm_run logger m t1 [] [] (Ok ([], t1, []))); auto.
  - intros [|g] insub G; [cbn in G; lia|reflexivity].
  - revert A. apply Forall_impl. apply between_calm.
Qed.
Print Assumptions C121_no_contains.
Theorem C121_second_module_refuted : forall logger before s m sp e mid n e2 after t1, elsewhere before -> module_stmt m s -> specification m sp t1 -> end_module m e ->
  Forall (fun s => inside s /\ ~ opens_routine s) mid -> end_module n e2 -> n <> m ->
  exists msg, scan logger (before ++ (s :: sp ++ [e]) ++ mid ++ e2 :: after) = Raise msg.
Proof.
  intros logger before s m sp e mid n e2 after t1 B MS SP EM A E2 NE. exists "ParseContextError: Trying to exit"%string. rewrite scan_eq by now destruct before. rewrite !toks_app. apply elsewhere_run; auto. intros f LF. rewrite toks_cons in *. cbn [app] in *. destruct f as [|f]; [lia|]. cbn [file_scan]. rewrite (module_yes m s MS).
  assert (PM : parse_module logger m (NL :: toks (sp ++ [e]) ++ toks mid ++ toks (e2 :: after)) = Raise "ParseContextError: Trying to exit"); [|now rewrite PM].
  unfold parse_module. set (T2 := toks (e2 :: after)). rewrite toks_app, <- app_assoc, toks_cons. cbn [app length]. change (toks [] ++ toks mid ++ T2) with (toks mid ++ T2). set (F := S (length (toks sp ++ St e :: NL :: toks mid ++ T2))). cbn [spec_scan]. unfold F; clear F. rewrite (specification_run logger m sp t1 SP); [|now apply (end_stop m)|cbn [length]; lia]. cbn [bind fst snd].
  cbn [length]. set (F := S (length (toks mid ++ T2))). cbn [module_scan]. unfold F; clear F. unfold T2.
  assert (X : forall f insub seen, length (toks mid ++ toks (e2 :: after)) < f -> module_scan f logger m m (toks mid ++ toks (e2 :: after)) None insub seen t1 [] = Raise "ParseContextError: Trying to exit").
  { clear - A E2 NE. induction A as [|x mid (I & O) A IH]; intros f insub seen LF.
    - cbn [app] in *. rewrite toks_cons in *. cbn [toks tokens map List.concat app] in *. destruct f as [|f]; [cbn in LF; lia|]. destruct (end_module_facts n e2 E2) as (A1 & A2 & _). cbn [module_scan]. rewrite A1, (endmod_yes n e2 E2). assert (Y : str_eqb n m = false) by now apply str_eqb_neq. now rewrite Y.
    - rewrite toks_cons in LF. change (toks (x :: mid)) with (St x :: NL :: toks mid). cbn [app] in *. destruct (inside_facts x I). apply pass_line; auto. now apply sub_no. }
  apply X. lia.
Qed.
Print Assumptions C121_second_module_refuted.

(* ---- an example ---- *)
Ltac no_doc := let n := fresh in let H := fresh in intros n H; apply table_yes in H; vm_compute in H; discriminate H.
Lemma endsub_iff s : endsub_match s = false -> ~ end_of (L "subroutine") s. Proof. intros E H. apply endsub_yes in H. congruence. Qed.
Lemma endtype_iff s : endtype_match s = false -> ~ end_of (L "type") s. Proof. intros E H. apply endtype_yes in H. congruence. Qed.
Lemma contains_iff s : contains_match s = false -> ~ begins (L "contains") s. Proof. intros E H. apply contains_yes in H. congruence. Qed.
Lemma intent_iff s : dummy_match s = false -> ~ mentions_intent s. Proof. intros E H. apply dummy_yes in H. congruence. Qed.
Lemma endmodule_iff s : after_end (L "module") s = None -> ~ end_of (L "module") s.
Proof. intros E (w0 & e & w1 & t & r & -> & W0 & HE & W1 & T). rewrite (after_end_yes (L "module") w0 e w1 t r W0 HE W1 T eq_refl) in E. discriminate. Qed.
Lemma opens_iff s : sub_match s = None -> ~ opens_routine s.
Proof.
  intros E (w0 & p & w1 & k & w2 & c & r & -> & W0 & P & W1 & K & W2 & A). unfold sub_match in E. rewrite lstrip_blank in E by auto. rewrite skip_yes in E by auto. rewrite (aw_yes _ _ _ K) in E. rewrite lstrip_blank in E by auto. rewrite lstrip_head in E by now apply alpha_not_space.
  unfold id_at in E. rewrite A in E. destruct (lstrip (dropwhile is_word (c :: r))) as [|x y]; [discriminate|]. destruct (Ascii.eqb x "("); [|discriminate]. destruct (has_c ")" (lstrip y)); discriminate.
Qed.
Definition sample : list str := map L [
  "module foo"; "  use kinds, only: kp"; "  implicit none";
  "!> \section arg_table_vec_t Argument Table"; "!! \htmlinclude vec_t.html"; "  type vec_t"; "    integer :: n"; "    real(kind=kp) :: x(3)"; "  end type vec_t";
  "!> \section arg_table_foo"; "  integer :: nmod";
  "contains";
  "!> \section arg_table_foo_run Argument Table"; "!! \htmlinclude foo_run.html"; "  subroutine foo_run(a, B)"; "    real, intent(in) :: b"; "    integer, intent(out) :: a"; "    a = 1"; "  end subroutine foo_run";
  "  pure subroutine bar"; "  end subroutine bar"; "end module foo"]%string.
Definition sample_tables : list table :=
  [mkT (L "vec_t") "ddt" (L "foo") [mkDV (L "n") (L "integer") false None false false None (L "()"); mkDV (L "x") (L "real") false (Some (L "kp")) false false None (L "(3)")];
   mkT (L "foo") "module" (L "foo") [mkDV (L "nmod") (L "integer") false None false false None (L "()")];
   mkT (L "foo_run") "scheme" (L "foo") [mkDV (L "a") (L "integer") false None false false (Some (L "out")) (L "()"); mkDV (L "b") (L "real") false None false false (Some (L "in")) (L "()")]].
Ltac is_inside := split; [no_doc|apply endmodule_iff; vm_compute; reflexivity].
Ltac not_type := left; intros B; revert B; match goal with |- begins ?w ?s -> False => change (~ begins w s) end; apply not_begins; [easy|reflexivity|vm_compute; reflexivity].
Ltac is_plain := split; [is_inside|split; [not_type|apply contains_iff; vm_compute; reflexivity]].
Ltac is_between := split; [is_inside|split; [apply opens_iff; vm_compute; reflexivity|apply contains_iff; vm_compute; reflexivity]].
Lemma id_lit s : match s with c :: t => (is_alpha c && forallb is_word t)%bool | [] => false end = true -> identifier s.
Proof. destruct s as [|c t]; [discriminate|]. intros H. apply andb_true_iff in H as []. now exists c, t. Qed.
Lemma no_char c s : has_c c s = false -> ~ In c s.
Proof. intros H I. apply has_c_in in I. congruence. Qed.
Definition d_int (n : str) : ent := mkEnt [] n [] None [] None.
Definition at_intent (x : str) : attr := mkAttr (L " ") (L "intent") [] (Some x) (L " ").
Lemma ok_int n : identifier n -> ent_ok (d_int n).
Proof. intros H. split; [reflexivity|]. split; [reflexivity|]. split; [reflexivity|]. split; [exact H|]. split; intros x E; discriminate E. Qed.
Lemma ok_dim n d : identifier n -> balanced d -> ~ In "="%char d -> ~ In "'"%char d -> ~ In """"%char d -> ent_ok (mkEnt [] n [] (Some d) [] None).
Proof. intros H B E1 E2 E3. split; [reflexivity|]. split; [reflexivity|]. split; [reflexivity|]. split; [exact H|]. split; intros x E; [|discriminate E]. cbn in E. injection E as <-. auto. Qed.
Lemma ok_intent x : balanced x -> attr_ok (at_intent x).
Proof. intros B. split; [reflexivity|]. split; [reflexivity|]. split; [reflexivity|]. split; [cbn; tauto|]. split; [|discriminate]. intros y E. cbn in E. injection E as <-. exact B. Qed.
Ltac one_of := let x := fresh in let H := fresh in intros x H; repeat (destruct H as [<-|H]; [first [apply ok_intent; apply balanced_by; reflexivity|apply ok_int; apply id_lit; reflexivity|apply ok_dim; [apply id_lit; reflexivity|apply balanced_by; reflexivity|apply no_char; reflexivity|apply no_char; reflexivity|apply no_char; reflexivity]]|]); destruct H.
Ltac simple_declaration w0 w1 w2 al el :=
  exists w0, w1, w2, [], (L "::"), []; split; [vm_compute; reflexivity|]; split; [reflexivity|]; split; [reflexivity|]; split; [reflexivity|]; split; [reflexivity|]; split; [now left|]; split; [now left|];
  split; [one_of|]; split; [one_of|];
  split; [apply no_char; vm_compute; reflexivity|]; split; [apply no_colons_by; reflexivity|apply no_colons_by; reflexivity].
(* the pieces of the sample *)
Lemma not_blank s : lstrip s <> [] -> ~ blank s. Proof. intros N B. apply N. now apply lstrip_nil. Qed.
Lemma flags_no (l : list attr) n : (forall a, In a l -> named n a = false) -> (false = true <-> is_set n l).
Proof. intros H. split; [discriminate|]. intros (a & I & N & _). rewrite (H a I) in N. discriminate. Qed.
Lemma SAY T i n : Forall2 (says T None false [at_intent i] (Some (lower (strip i)))) [d_int n] [mkDV n T false None false false (Some (lower (strip i))) (L "()")].
Proof. constructor; [|constructor]. split; [reflexivity|]. split; [reflexivity|]. split; [reflexivity|]. split; [reflexivity|]. split; [apply flags_no; intros a [<-|[]]; reflexivity|]. split; [apply flags_no; intros a [<-|[]]; reflexivity|]. split; reflexivity. Qed.
Lemma HI i : exists a, In a [at_intent i] /\ named "intent" a = true. Proof. exists (at_intent i). split; [now left|reflexivity]. Qed.
Lemma ex_body : arguments (map L ["    real, intent(in) :: b"; "    integer, intent(out) :: a"; "    a = 1"]%string)
  [mkDV (L "b") (L "real") false None false false (Some (L "in")) (L "()"); mkDV (L "a") (L "integer") false None false false (Some (L "out")) (L "()")].
Proof.
  apply (a_decl (L "    real, intent(in) :: b") _ (L "real") (L "real") None false [at_intent (L "in")] [d_int (L "b")] [mkDV (L "b") (L "real") false None false false (Some (L "in")) (L "()")] [mkDV (L "a") (L "integer") false None false false (Some (L "out")) (L "()")]); [apply h_plain; right; now left|simple_declaration (L "    ") (@nil ascii) (L " ") [at_intent (L "in")] [d_int (L "b")]|apply HI|exact (SAY (L "real") (L "in") (L "b"))|].
  apply (a_decl (L "    integer, intent(out) :: a") _ (L "integer") (L "integer") None false [at_intent (L "out")] [d_int (L "a")] [mkDV (L "a") (L "integer") false None false false (Some (L "out")) (L "()")] []); [apply h_plain; now left|simple_declaration (L "    ") (@nil ascii) (L " ") [at_intent (L "out")] [d_int (L "a")]|apply HI|exact (SAY (L "integer") (L "out") (L "a"))|].
  constructor; [|constructor]. split; [is_inside|]. split; [now apply not_blank|]. split; [apply opens_iff; vm_compute; reflexivity|]. split; [apply endsub_iff; vm_compute; reflexivity|]. split; [apply contains_iff; vm_compute; reflexivity|]. right. apply intent_iff. vm_compute. reflexivity.
Qed.
Lemma ex_says T K n dims : forall d, dims = match d with Some x => L "(" ++ x ++ L ")" | None => L "()" end -> Forall2 (says T K false [] None) [mkEnt [] n [] d [] None] [mkDV n T false K false false None dims].
Proof.
  intros d ->. constructor; [|constructor]. split; [reflexivity|]. split; [reflexivity|]. split; [reflexivity|]. split; [reflexivity|]. split; [apply flags_no; intros a []|]. split; [apply flags_no; intros a []|]. split; [reflexivity|]. now destruct d.
Qed.
Lemma ex_data P : data P (map L ["    integer :: n"; "    real(kind=kp) :: x(3)"]%string)
  [mkDV (L "n") (L "integer") false None false false None (L "()"); mkDV (L "x") (L "real") false (Some (L "kp")) false false None (L "(3)")].
Proof.
  apply (d_decl P (L "    integer :: n") _ (L "integer") (L "integer") None false [] [d_int (L "n")] [mkDV (L "n") (L "integer") false None false false None (L "()")] [mkDV (L "x") (L "real") false (Some (L "kp")) false false None (L "(3)")]); [apply h_plain; now left|simple_declaration (L "    ") (L " ") (L " ") (@nil attr) [d_int (L "n")]|intros a []|now apply (ex_says _ _ _ _ None)|].
  apply (d_decl P (L "    real(kind=kp) :: x(3)") _ (L "real(kind=kp)") (L "real") (Some (L "kp")) false [] [mkEnt [] (L "x") [] (Some (L "3")) [] None] [mkDV (L "x") (L "real") false (Some (L "kp")) false false None (L "(3)")] []); [|simple_declaration (L "    ") (L " ") (L " ") (@nil attr) [mkEnt [] (L "x") [] (Some (L "3")) [] None]|intros a []|now apply (ex_says _ _ _ _ (Some (L "3")))|constructor].
  apply (h_kind_eq (L "real") [] [] (L "kind") [] [] (L "kp") []); try reflexivity; [right; left; reflexivity|]. split; [easy|]. split; [reflexivity|]. discriminate.
Qed.
Ltac is_comment := left; eexists _, _; split; [vm_compute; reflexivity|reflexivity].
Lemma ex_spec : specification (L "foo") (firstn 10 (tl sample)) (firstn 2 sample_tables).
Proof.
  change (firstn 10 (tl sample)) with (map L ["  use kinds, only: kp"; "  implicit none"]%string ++ L "!> \section arg_table_vec_t Argument Table" ::
    map L ["!! \htmlinclude vec_t.html"; "  type vec_t"; "    integer :: n"; "    real(kind=kp) :: x(3)"; "  end type vec_t"; "!> \section arg_table_foo"; "  integer :: nmod"]%string).
  change (firstn 2 sample_tables) with ([mkT (L "vec_t") "ddt" (L "foo") [mkDV (L "n") (L "integer") false None false false None (L "()"); mkDV (L "x") (L "real") false (Some (L "kp")) false false None (L "(3)")]] ++ [mkT (L "foo") "module" (L "foo") [mkDV (L "nmod") (L "integer") false None false false None (L "()")]]).
  apply (s_some (L "foo") _ (L "vec_t")).
  - apply o_line; [is_plain|]. apply o_line; [is_plain|constructor].
  - exists [], (L ">"), (L " "), (L "\section"), (L " "), (L "arg_table_"), (L " Argument Table"). split; [reflexivity|]; split; [reflexivity|]; split; [now right|]; split; [reflexivity|]; split; [now right|]; split; [reflexivity|]; split; [reflexivity|]; split; [now apply id_lit|reflexivity].
  - cbn [map]. apply p_quiet; [is_plain|now apply not_blank| |].
    { left. exists [], (L "! \htmlinclude vec_t.html"). split; reflexivity. }
    apply (p_type (L "foo") (L "vec_t") (L "vec_t") _ (map L ["  type vec_t"; "    integer :: n"; "    real(kind=kp) :: x(3)"; "  end type vec_t"]%string) (map L ["!> \section arg_table_foo"; "  integer :: nmod"]%string) []); [reflexivity| |].
    { exists (L "  type vec_t"), (map L ["    integer :: n"; "    real(kind=kp) :: x(3)"]%string), [], (L "  end type vec_t"). split; [reflexivity|]. split.
      - right. exists None. exists (L "  "), (L "type"), (L " "), [], [], []. split; [reflexivity|]. split; [reflexivity|]. split; [reflexivity|]. split; [reflexivity|]. split; [cbn; tauto|]. split; [reflexivity|]. split; [reflexivity|]. split; [now left|]. split; [now apply id_lit|]. intros p E. discriminate.
      - split; [apply ex_data|]. split; [repeat constructor; cbn; intuition discriminate|]. split; [now left|]. exists (L "  "), (L "end"), (L " "), (L "type"), (L " vec_t"). repeat split. }
    cbn [map]. apply (p_announce (L "foo") None (L "foo")).
    { exists [], (L ">"), (L " "), (L "\section"), (L " "), (L "arg_table_"), []. split; [reflexivity|]; split; [reflexivity|]; split; [now right|]; split; [reflexivity|]; split; [now right|]; split; [reflexivity|]; split; [reflexivity|]; split; [now apply id_lit|reflexivity]. }
    apply (p_decl (L "foo") (L "foo") (L "  integer :: nmod") [] [] [mkDV (L "nmod") (L "integer") false None false false None (L "()")] [] (L "integer") (L "integer") None false [] [d_int (L "nmod")]); [reflexivity| |simple_declaration (L "  ") (L " ") (L " ") (@nil attr) [d_int (L "nmod")]|intros a []|now apply (ex_says _ _ _ _ None)|constructor].
    apply h_plain. now left.
  - repeat constructor. intros [].
Qed.
Lemma ex_doc : documented (L "foo_run") [L "a"; L "B"] [mkDV (L "b") (L "real") false None false false (Some (L "in")) (L "()"); mkDV (L "a") (L "integer") false None false false (Some (L "out")) (L "()")]
  (firstn 7 (skipn 12 sample)).
Proof.
  exists (L "foo_run"), (L "!> \section arg_table_foo_run Argument Table"), (L "!! \htmlinclude foo_run.html"), [], (L "  subroutine foo_run(a, B)"), (map L ["    real, intent(in) :: b"; "    integer, intent(out) :: a"; "    a = 1"]%string), [], (L "  end subroutine foo_run").
  split; [reflexivity|]. split.
  { exists [], (L ">"), (L " "), (L "\section"), (L " "), (L "arg_table_"), (L " Argument Table"). split; [reflexivity|]; split; [reflexivity|]; split; [now right|]; split; [reflexivity|]; split; [now right|]; split; [reflexivity|]; split; [reflexivity|]; split; [now apply id_lit|reflexivity]. }
  split; [is_inside|]. split; [apply contains_iff; vm_compute; reflexivity|]. split; [constructor|]. split.
  { exists (L "  "), [], [], (L "subroutine"), (L " "), (L "(a, B)"). split; [reflexivity|]. split; [reflexivity|]. split; [now left|]. split; [reflexivity|]. split; [reflexivity|]. split; [reflexivity|]. split; [easy|]. split; [now apply id_lit|].
    right. exists [], (L "a, B"), []. split; [reflexivity|]. split; [reflexivity|]. right. split; [easy|]. split; [repeat constructor; now apply id_lit|]. exists [L "a"; L " B"]. split; [reflexivity|]. constructor; [exists [], []; repeat split|constructor; [exists (L " "), []; repeat split|constructor]]. }
  split; [reflexivity|]. split; [apply ex_body|]. split; [now left|]. exists (L "  "), (L "end"), (L " "), (L "subroutine"), (L " foo_run"). repeat split.
Qed.
Lemma ex_undoc : undocumented (L "bar") (map L ["  pure subroutine bar"; "  end subroutine bar"]%string).
Proof.
  exists [], (L "  pure subroutine bar"), [], [], (L "  end subroutine bar"). split; [reflexivity|]. split.
  { exists (L "  "), (L "pure"), (L " "), (L "subroutine"), (L " "), []. split; [reflexivity|]. split; [reflexivity|]. split; [right; right; now left|]. split; [reflexivity|]. split; [reflexivity|]. split; [reflexivity|]. split; [easy|]. split; [now apply id_lit|].
    left. split; auto. exists [], []. repeat split. now left. }
  split; [constructor|]. split; [now left|]. exists (L "  "), (L "end"), (L " "), (L "subroutine"), (L " bar"). repeat split.
Qed.
Lemma ex_ends : module_stmt (L "foo") (L "module foo") /\ end_module (L "foo") (L "end module foo") /\ begins (L "contains") (L "contains").
Proof. destruct (plain_stmts (L "foo")) as (A & B & _); [now apply id_lit|]. split; auto. split; auto. exists [], (L "contains"), []. repeat split. Qed.
Lemma ex_table : scheme_table (L "foo") (L "foo_run") [L "a"; L "B"] [mkDV (L "b") (L "real") false None false false (Some (L "in")) (L "()"); mkDV (L "a") (L "integer") false None false false (Some (L "out")) (L "()")]
  (mkT (L "foo_run") "scheme" (L "foo") [mkDV (L "a") (L "integer") false None false false (Some (L "out")) (L "()"); mkDV (L "b") (L "real") false None false false (Some (L "in")) (L "()")]).
Proof. split; [reflexivity|split; [reflexivity|split; [reflexivity|split; [apply perm_swap|reflexivity]]]]. Qed.
Example C119_example : a_module sample sample_tables [L "bar"] /\ elsewhere [L "! a comment"] /\ scan false ([L "! a comment"] ++ sample ++ []) = Ok (sample_tables, [L "bar"]).
Proof.
  assert (M : a_module sample sample_tables [L "bar"]).
  { destruct ex_ends as (A & B & C). exists (L "foo"), (L "module foo"), (firstn 10 (tl sample)), (L "contains"), (firstn 7 (skipn 12 sample) ++ map L ["  pure subroutine bar"; "  end subroutine bar"]%string ++ []), (L "end module foo"), (firstn 2 sample_tables), (skipn 2 sample_tables).
    split; [reflexivity|]. split; auto. split; [apply ex_spec|]. split; auto. split; [|split; auto]. eapply r_doc; [apply ex_doc|repeat constructor; cbn; intuition discriminate|apply ex_table|]. apply r_undoc; [apply ex_undoc|constructor]. }
  assert (E : elsewhere [L "! a comment"]) by (constructor; [intros n H; apply module_yes in H; vm_compute in H; discriminate|constructor]).
  split; [exact M|]. split; [exact E|]. apply C119_file; auto; constructor.
Qed.
(* the same file without the declaration of b is rejected *)
Example C118_example : exists msg, scan false (map L [
  "module foo"; "contains"; "!> \section arg_table_foo_run"; "!!"; "subroutine foo_run(a, B)"; "integer, intent(out) :: a"; "end subroutine foo_run"; "end module foo"]%string) = Raise msg.
Proof. eexists. vm_compute. reflexivity. Qed.
Example C118_hypotheses : elsewhere [L "! a comment"] /\ module_stmt (L "foo") (L "module foo") /\ specification (L "foo") (firstn 10 (tl sample)) (firstn 2 sample_tables) /\ begins (L "contains") (L "contains") /\
  documented (L "foo_run") [L "a"; L "B"] [mkDV (L "b") (L "real") false None false false (Some (L "in")) (L "()"); mkDV (L "a") (L "integer") false None false false (Some (L "out")) (L "()")] (firstn 7 (skipn 12 sample)) /\
  procedures (L "foo") (map L ["  pure subroutine bar"; "  end subroutine bar"]%string ++ []) [] [L "bar"] /\ end_module (L "foo") (L "end module foo").
Proof.
  destruct ex_ends as (A & B & C). split; [constructor; [intros n H; apply module_yes in H; vm_compute in H; discriminate|constructor]|]. split; auto. split; [apply ex_spec|]. split; auto. split; [apply ex_doc|]. split; auto. apply r_undoc; [apply ex_undoc|constructor].
Qed.
(* two modules: the routine bar of the first one is not reported *)
Example C120_example : exists m1 m2 ts, a_module m1 ts [L "bar"] /\ a_module m2 [] [] /\ file (m1 ++ m2) ts [] /\ scan true (m1 ++ m2) = Ok (ts, []).
Proof.
  exists sample, (map L ["module two"; "contains"; "end module two"]%string), sample_tables. destruct C119_example as (M & _).
  assert (M2 : a_module (map L ["module two"; "contains"; "end module two"]%string) [] []).
  { destruct (plain_stmts (L "two")) as (A & B & _); [now apply id_lit|]. exists (L "two"), (L "module two"), [], (L "contains"), [], (L "end module two"), [], []. split; [reflexivity|]. split; auto. split; [repeat constructor|]. split; [apply ex_ends|]. split; [constructor|auto]. }
  assert (F : file (sample ++ map L ["module two"; "contains"; "end module two"]%string) sample_tables []).
  { rewrite <- (app_nil_r sample_tables). change (sample ++ ?x) with ([] ++ sample ++ x). apply (f_more [] sample _ sample_tables [L "bar"] [] []); auto; [constructor|]. rewrite <- (app_nil_r (map L ["module two"; "contains"; "end module two"]%string)). change (?x ++ []) with ([] ++ x ++ []). apply f_last; auto; constructor. }
  split; [exact M|]. split; [exact M2|]. split; [exact F|]. now apply C120_tables.
Qed.
Example C121_examples :
  (exists msg, scan false (map L ["module Foo"; "contains"; "end module foo"]%string) = Raise msg) /\
  (exists msg, scan false (map L ["module foo"; "contains"; "!> \section arg_table_foo_run"; "subroutine foo_run()"; "end subroutine foo_run"; "end module foo"]%string) = Raise msg) /\
  (exists msg, scan false (map L ["subroutine foo"; "end subroutine foo"]%string) = Raise msg) /\
  (exists msg, scan false (map L ["module a"; "end module a"; "module b"; "contains"; "end module b"]%string) = Raise msg) /\
  scan false (map L ["module a"; "end module a"; "! the end"]%string) = Ok ([], []) /\
  identifier (L "foo_mod").
Proof. repeat split; try (eexists; vm_compute; reflexivity). now apply id_lit. Qed.
