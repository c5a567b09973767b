(* ModRun.v: the scanner on routines, specification parts, modules and files. *)
From Verif Require Import PyStr Base LineSpec LineModel CheckModel PhaseProps DeclModel DeclSpec DeclProofs DeclHeads DeclBody DeclProps DeclMoreProps ModModel ModSpec ModProofs ModScan.
From Coq Require Import Lia Permutation ListDec.
Open Scope nat_scope.
Open Scope list_scope.

Lemma toks_len l : length (toks l) = 2 * length l.
Proof. induction l as [|s l IH]; [reflexivity|]. rewrite toks_cons. cbn [length]. lia. Qed.

Lemma nodup_l (a b : list str) : NoDup (a ++ b) -> NoDup a.
Proof. induction a as [|x a IH]; cbn; intros H; [constructor|]. inversion_clear H as [|? ? N H']. constructor; auto. intros I. apply N, in_app_iff. auto. Qed.

(* ---- routines ---- *)
Lemma gap_run logger tbl g : Forall between g -> forall r nm d, scheme_scan logger tbl (toks g ++ r) (mkS false true false nm d) = scheme_scan logger tbl r (mkS false true false nm d).
Proof.
  induction 1 as [|s g (I & O & C) F IH]; intros r nm d; [reflexivity|]. rewrite toks_cons. cbn [app scheme_scan z_insub z_seen z_pre z_name z_dict andb orb].
  destruct (inside_facts s I) as [-> ->]. rewrite (contains_no s C), (sub_no s O). cbn [andb orb]. apply IH.
Qed.
Lemma stmt_run logger tbl n args s r : routine n args s -> same n tbl ->
  scheme_scan logger tbl (St s :: NL :: r) (mkS false true false None None) =
  (d <- dummy_dict (map lower args) [] ;; scheme_scan logger tbl r (mkS true true false (Some n) (Some d))).
Proof.
  intros R S. destruct (routine_facts n args s R) as (T & E & _ & C). destruct (sub_yes n args s R) as (a & SM & D). cbn [scheme_scan z_insub z_seen z_pre z_name z_dict andb orb].
  rewrite C, T, E, SM. cbn [andb orb]. unfold same_name. unfold same in S. rewrite S, str_eqb_refl. rewrite D. destruct (dummy_dict (map lower args) []); reflexivity.
Qed.
Lemma declare_app (d : dict) a b : declare d (a ++ b) = (d' <- declare d a ;; declare d' b).
Proof.
  revert d. induction a as [|v a IH]; intros d; [reflexivity|]. cbn [app declare]. cbv zeta. destruct (List.find (fun kv => str_eqb (fst kv) (lower (dv_name v))) d) as [[k [o|]]|]; try reflexivity. apply IH.
Qed.
Lemma quiet_comment s : ~ blank s -> comment_line s \/ ~ mentions_intent s -> exists b, comment_stmt s = Ok b /\ (negb b && dummy_match s)%bool = false.
Proof.
  intros NB [Q|Q]; [exists true; split; auto; now apply comment_yes|]. destruct (comment_cases s NB) as (b & E & _). exists b. split; auto. rewrite (dummy_no s Q). apply andb_false_r.
Qed.
Lemma args_run logger tbl b vs : arguments b vs -> forall r nm (d : dict),
  scheme_scan logger tbl (toks b ++ r) (mkS true true false nm (Some d)) =
  (d' <- declare d vs ;; scheme_scan logger tbl r (mkS true true false nm (Some d'))).
Proof.
  induction 1 as [|s ls vs (I & NB & O & E & C & Q) A IH|s ls h T K ddt al el vs vs' H D N F A IH]; intros r nm d; [reflexivity| |].
  - rewrite toks_cons. cbn [app scheme_scan z_insub z_seen z_pre z_name z_dict andb orb]. destruct (inside_facts s I) as [-> ->]. rewrite (contains_no s C), (sub_no s O), (endsub_no s E). cbn [andb orb].
    destruct (quiet_comment s NB Q) as (bb & -> & X). cbn [bind]. rewrite X. apply IH.
  - rewrite toks_cons. cbn [app scheme_scan z_insub z_seen z_pre z_name z_dict andb orb]. destruct (decl_facts h T K ddt al el s H D) as (-> & -> & -> & -> & _ & -> & ->). rewrite (intent_there h al el s D N). cbn [andb orb negb bind].
    rewrite (scheme_decl logger h T K ddt al el s vs H D F). cbn [bind]. rewrite declare_app. destruct (declare d vs) as [d'|m]; [|reflexivity]. cbn [bind]. apply IH.
Qed.
(* lines that the scanner of the module passes over *)
Definition calm (s : str) : Prop := table_match s = None /\ endmod_match s = None /\ sub_match s = None /\ contains_match s = false.
Lemma between_calm s : between s -> calm s.
Proof. intros (I & O & C). destruct (inside_facts s I). split; auto. split; auto. split; [now apply sub_no|now apply contains_no]. Qed.
Lemma end_calm e : end_of (L "subroutine") e -> calm e.
Proof. intros E. destruct (end_facts _ e E eq_refl) as (A & B & C). split; auto. split; [now apply C|]. split; auto. now apply end_sub_routine. Qed.
Lemma inner_run logger tbl l : Forall (fun s => inside s /\ ~ end_of (L "subroutine") s) l -> forall r nm D,
  scheme_scan logger tbl (toks l ++ r) (mkS false true true nm D) = scheme_scan logger tbl r (mkS false true true nm D).
Proof.
  induction 1 as [|s l (I & E) F IH]; intros r nm D; [reflexivity|]. rewrite toks_cons. cbn [app scheme_scan z_insub z_seen z_pre z_name z_dict andb orb].
  destruct (inside_facts s I) as [-> ->]. rewrite (endsub_no s E). cbn [andb orb]. apply IH.
Qed.
Lemma internal_run logger tbl i e : internal i -> end_of (L "subroutine") e -> forall r nm D, exists q, Forall calm q /\ length q <= length i + 1 /\
  scheme_scan logger tbl (toks (i ++ [e]) ++ r) (mkS true true false nm D) = Ok (toks q ++ r, false, mkS false false false nm D).
Proof.
  intros I E r nm D. destruct (end_calm e E) as (E1 & E2 & E3 & E4). assert (E5 := endsub_yes e E).
  destruct I as [->|[(c & l & -> & C & F)|(c & l & e' & l' & -> & C & F & E' & F')]].
  - exists []. split; [constructor|]. split; [cbn; lia|]. cbn [app]. rewrite toks_cons. cbn [app scheme_scan z_insub z_seen z_pre z_name z_dict andb orb]. rewrite E1, E2, E3, E4, E5. reflexivity.
  - exists []. split; [constructor|]. split; [cbn; lia|]. destruct (contains_facts c C) as (C1 & C2 & C3 & C4 & _). cbn [app]. rewrite toks_cons. cbn [app scheme_scan z_insub z_seen z_pre z_name z_dict andb orb]. rewrite C1, C2, C3, C4. cbn [andb orb].
    rewrite toks_app, <- app_assoc, inner_run by auto. rewrite toks_cons. cbn [app scheme_scan z_insub z_seen z_pre z_name z_dict andb orb]. rewrite E1, E2, E5. reflexivity.
  - exists (l' ++ [e]). split.
    + apply Forall_app. split; [|constructor; [now apply end_calm|constructor]]. revert F'. apply Forall_impl. intros s (A & _ & B & X). apply between_calm. split; auto.
    + split; [rewrite app_length; cbn [length]; rewrite app_length; cbn; lia|]. destruct (contains_facts c C) as (C1 & C2 & C3 & C4 & _). cbn [app]. rewrite toks_cons. cbn [app scheme_scan z_insub z_seen z_pre z_name z_dict andb orb]. rewrite C1, C2, C3, C4. cbn [andb orb].
      rewrite <- app_assoc, toks_app, <- app_assoc, inner_run by auto. cbn [app]. rewrite toks_cons. destruct (end_calm e' E') as (X1 & X2 & X3 & X4). cbn [app scheme_scan z_insub z_seen z_pre z_name z_dict andb orb]. rewrite X1, X2, (endsub_yes e' E'). reflexivity.
Qed.
Lemma routine_args n args s : routine n args s -> Forall (fun a => a <> []) (map lower args).
Proof.
  intros (w0 & p & w1 & k & w2 & r & _ & _ & _ & _ & _ & _ & _ & _ & A). assert (F : Forall identifier args) by (destruct A as [(-> & _)|(w & a & z & _ & _ & [(-> & _)|(_ & F & _)])]; auto).
  apply Forall_map. revert F. apply Forall_impl. intros a (c & t & -> & _). easy.
Qed.
(* a documented routine *)
Lemma scheme_run logger m t n args vs g s b i e r : Forall between g -> routine n args s -> same n t -> arguments b vs -> internal i -> end_of (L "subroutine") e ->
  exists q, Forall calm q /\ length q <= length i + 1 /\ parse_scheme_metadata logger m t (NL :: toks (g ++ s :: b ++ i ++ [e]) ++ r) =
    (d0 <- dummy_dict (map lower args) [] ;; d <- declare d0 vs ;;
     match all_declared d with Some l => Ok (toks q ++ r, false, mkT n "scheme" m l) | None => Raise "CCPPError: Missing local_variables" end).
Proof.
  intros G R S A I E. destruct (internal_run logger t i e I E r (Some n) None) as (q & Q & QL & _).
  assert (EQ : forall D, exists q, Forall calm q /\ length q <= length i + 1 /\ scheme_scan logger t (toks (i ++ [e]) ++ r) (mkS true true false (Some n) D) = Ok (toks q ++ r, false, mkS false false false (Some n) D)) by (intros D; now apply internal_run).
  unfold parse_scheme_metadata. cbn [scheme_scan z_insub]. rewrite toks_app, <- app_assoc, gap_run by auto. rewrite toks_cons. cbn [app]. rewrite (stmt_run logger t n args s _ R S).
  destruct (dummy_dict (map lower args) []) as [d0|x]; [|exists q; split; auto]. cbn [bind]. rewrite toks_app, <- app_assoc. rewrite (args_run logger t b vs A). destruct (declare d0 vs) as [d|x]; [|exists q; split; auto]. cbn [bind].
  destruct (EQ (Some d)) as (q' & Q' & QL' & X). exists q'. split; auto. split; auto. rewrite X. cbn [bind z_dict z_name]. destruct (all_declared d); reflexivity.
Qed.
Lemma scheme_good logger m t n args vs g s b i e r T : Forall between g -> routine n args s -> same n t -> arguments b vs -> internal i -> end_of (L "subroutine") e ->
  NoDup (map lower args) -> scheme_table m n args vs T ->
  exists q, Forall calm q /\ length q <= length i + 1 /\ parse_scheme_metadata logger m t (NL :: toks (g ++ s :: b ++ i ++ [e]) ++ r) = Ok (toks q ++ r, false, T).
Proof.
  intros G R S A I E N (T1 & T2 & T3 & T4 & T5). destruct (scheme_run logger m t n args vs g s b i e r G R S A I E) as (q & Q & QL & X). exists q. split; auto. split; auto. rewrite X.
  destruct (dummy_ok (map lower args) [] (routine_args n args s R)) as [D _]. rewrite D by exact N. cbn [app bind].
  destruct (declare_args (map lower args) vs N) as [Y _]. destruct (Y (t_vars T) T4 T5) as (d & Z & W). cbn [bind]. unfold str in *. rewrite Z. cbn [bind]. rewrite W. destruct T. cbn in *. now subst.
Qed.
Lemma scheme_bad logger m t n args vs g s b i e r : Forall between g -> routine n args s -> same n t -> arguments b vs -> internal i -> end_of (L "subroutine") e ->
  ~ (NoDup (map lower args) /\ Permutation (map key vs) (map lower args)) ->
  exists x, parse_scheme_metadata logger m t (NL :: toks (g ++ s :: b ++ i ++ [e]) ++ r) = Raise x.
Proof.
  intros G R S A I E N. destruct (scheme_run logger m t n args vs g s b i e r G R S A I E) as (q & Q & QL & X). rewrite X.
  destruct (dummy_ok (map lower args) [] (routine_args n args s R)) as [D1 D2]. destruct (dummy_dict (map lower args) []) as [d0|x] eqn:E0; [|cbn; eauto].
  destruct (ListDec.NoDup_dec (list_eq_dec Ascii.ascii_dec) (map lower args)) as [ND|ND]; [|exfalso; destruct D2 as (z & Z); [constructor|exact ND|discriminate]].
  cbn [map app] in D1. specialize (D1 ND). injection D1 as ->. cbn [bind].
  match goal with |- context [declare ?d vs] => destruct (declare d vs) as [d'|x] eqn:ED; [|cbn; eauto] end. cbn [bind]. destruct (all_declared d') as [l|] eqn:EA; [|eauto].
  destruct (declare_args (map lower args) vs ND) as [_ Y]. destruct (Y d' l ED EA) as [P M]. exfalso. apply N. split; auto. rewrite <- M. apply Permutation_map. now apply Permutation_sym.
Qed.

(* ---- the part after contains ---- *)
Section AfterContains.
Variables (logger : bool) (m : str) (ts : list table) (subs : list str) (r : list tok) (R : res (list tok * list table * list str)).
Hypothesis go : forall f insub, length r < f -> module_scan f logger m m r None insub false ts subs = R.
Lemma calm_run q : Forall calm q -> forall f insub, length (toks q ++ r) < f -> module_scan f logger m m (toks q ++ r) None insub false ts subs = R.
Proof.
  induction 1 as [|s q (A & B & C & D) F IH]; intros f insub LF; [now apply go|]. rewrite toks_cons in *. cbn [app length] in LF. destruct f as [|[|f]]; [lia|lia|].
  cbn [app]. set (k := S f). cbn [module_scan]. rewrite D, A, B, C. rewrite andb_false_r. cbn [orb]. unfold k. destruct (endsub_match s); cbn [module_scan]; apply IH; lia.
Qed.
Lemma inner_module l : Forall (fun s => inside s /\ ~ end_of (L "subroutine") s) l -> forall e q f insub, end_of (L "subroutine") e -> Forall calm q ->
  length (toks (l ++ e :: q) ++ r) < f -> module_scan f logger m m (toks (l ++ e :: q) ++ r) None insub true ts subs = R.
Proof.
  induction 1 as [|s l (I & N) F IH]; intros e q f insub E Q LF.
  - cbn [app] in *. rewrite toks_cons in *. cbn [app length] in LF. destruct f as [|[|f]]; [lia|lia|]. destruct (end_calm e E) as (A & B & C & D). cbn [app]. set (k := S f). cbn [module_scan orb]. rewrite A, B, C, (endsub_yes e E). unfold k. cbn [module_scan]. apply calm_run; auto. lia.
  - cbn [app] in *. rewrite toks_cons in *. cbn [app length] in LF. destruct f as [|[|f]]; [lia|lia|]. destruct (inside_facts s I) as [A B]. cbn [app]. set (k := S f). cbn [module_scan orb]. rewrite A, B, (endsub_no s N). unfold k. destruct (sub_match s) as [[n a]|]; cbn [module_scan]; apply IH; auto; lia.
Qed.
Lemma internal_module i e f : internal i -> end_of (L "subroutine") e -> length (toks (i ++ [e]) ++ r) < f ->
  module_scan f logger m m (toks (i ++ [e]) ++ r) None true false ts subs = R.
Proof.
  assert (CT : forall c x f, begins (L "contains") c -> length (toks (c :: x) ++ r) < f -> exists f', length (toks x ++ r) < f' /\ module_scan f logger m m (toks (c :: x) ++ r) None true false ts subs = module_scan f' logger m m (toks x ++ r) None true true ts subs).
  { intros c x f0 C LF. rewrite toks_cons in *. cbn [app length] in LF. destruct f0 as [|[|f0]]; [lia|lia|]. destruct (contains_facts c C) as (C1 & C2 & C3 & C4 & _ & C5 & _). exists f0. split; [lia|]. cbn [app]. set (k := S f0). cbn [module_scan orb andb]. rewrite C1, C2, C3, C4, C5. reflexivity. }
  intros I E LF. destruct I as [->|[(c & l & -> & C & F)|(c & l & e' & l' & -> & C & F & E' & F')]].
  - cbn [app] in *. apply (calm_run [e]); auto. constructor; [now apply end_calm|constructor].
  - cbn [app] in *. destruct (CT c (l ++ [e]) f C LF) as (f' & LF' & ->). now apply inner_module.
  - cbn [app] in *. rewrite <- app_assoc in *. cbn [app] in *. destruct (CT c _ f C LF) as (f' & LF' & ->). apply inner_module; auto. apply Forall_app. split; [|constructor; [now apply end_calm|constructor]].
    revert F'. apply Forall_impl. intros s (A & _ & B & X). apply between_calm. split; auto.
Qed.
End AfterContains.
Lemma doc_run logger m n args vs ls t ts subs r R : documented n args vs ls -> NoDup (map lower args) -> scheme_table m n args vs t ->
  (forall f insub, length r < f -> module_scan f logger m m r None insub false (ts ++ [t]) subs = R) ->
  forall f insub, length (toks ls ++ r) < f -> module_scan f logger m m (toks ls ++ r) None insub false ts subs = R.
Proof.
  intros (tb & d & g0 & g & s & b & i & e & -> & DD & IG & NC & G & RS & SA & A & I & E) N T GO f insub LF.
  cbn [app] in *. rewrite !toks_cons in *. cbn [app length] in LF. destruct f as [|[|[|f]]]; [lia|lia|lia|]. destruct (document_facts tb d DD) as (D1 & _ & _). destruct (inside_facts g0 IG) as [G1 G2].
  cbn [app]. set (k := S (S f)). cbn [module_scan]. rewrite D1, andb_false_r, (table_yes tb d DD). unfold k. clear k. set (k := S f). cbn [module_scan]. unfold k; clear k. cbn [module_scan]. cbn [orb]. rewrite (contains_no g0 NC), andb_false_r. cbn [orb]. rewrite G1, G2.
  destruct (scheme_good logger m tb n args vs g s b i e r t G RS SA A I E N T) as (q & Q & QL & X). rewrite X. cbn [bind]. apply (calm_run logger m (ts ++ [t]) subs r R GO q Q).
  assert (LQ : length (toks q ++ r) <= length (toks (g ++ s :: b ++ i ++ [e]) ++ r)).
  { rewrite !app_length, !toks_len, !app_length. cbn [length]. rewrite !app_length. cbn. lia. }
  lia.
Qed.
Lemma undoc_run logger m n ls ts subs r R : undocumented n ls ->
  (forall f insub, length r < f -> module_scan f logger m m r None insub false ts (subs ++ [n]) = R) ->
  forall f insub, length (toks ls ++ r) < f -> module_scan f logger m m (toks ls ++ r) None insub false ts subs = R.
Proof.
  intros (args & s & b & i & e & -> & RS & B & I & E) GO f insub LF. rewrite toks_cons in *. cbn [app length] in LF. destruct f as [|[|f]]; [lia|lia|].
  destruct (routine_facts n args s RS) as (S1 & S2 & _ & S4). destruct (sub_yes n args s RS) as (a & S3 & _). cbn [app]. set (k := S f). cbn [module_scan]. rewrite S4, andb_false_r, S1, S2, S3. cbn [orb]. unfold k. cbn [module_scan].
  assert (SN : strip n = n) by (destruct RS as (w0 & p & w1 & kk & w2 & rr & _ & _ & _ & _ & _ & _ & _ & ID & _); apply strip_solid; now apply ident_solid). rewrite SN.
  clear S1 S2 S3 S4 RS SN s. rewrite toks_app, <- app_assoc in *.
  assert (G : forall f insub, length (toks b ++ toks (i ++ [e]) ++ r) < f -> insub = true -> module_scan f logger m m (toks b ++ toks (i ++ [e]) ++ r) None insub false ts (subs ++ [n]) = R); [|apply G; auto; lia].
  clear - GO B I E. induction B as [|s b ((II & O & C) & N) B IH]; intros f insub LF ->; [now apply (internal_module logger m ts (subs ++ [n]) r R GO)|].
  rewrite toks_cons in *. cbn [app length] in LF. destruct f as [|[|f]]; [lia|lia|]. destruct (inside_facts s II) as [A1 A2]. cbn [app]. set (k := S f). cbn [module_scan]. rewrite (contains_no s C), A1, A2, (sub_no s O), (endsub_no s N). cbn [orb andb]. unfold k. cbn [module_scan]. apply IH; auto. lia.
Qed.
Lemma procedures_run logger m ls ts' us : procedures m ls ts' us -> forall ts subs r R,
  (forall f insub, length r < f -> module_scan f logger m m r None insub false (ts ++ ts') (subs ++ us) = R) ->
  forall f insub, length (toks ls ++ r) < f -> module_scan f logger m m (toks ls ++ r) None insub false ts subs = R.
Proof.
  induction 1 as [|s ls ts' us B P IH|n args vs b t ls ts' us D N T P IH|n b ls ts' us U P IH]; intros ts subs r R GO.
  - rewrite !app_nil_r in GO. exact GO.
  - intros f insub LF. change (s :: ls) with ([s] ++ ls) in *. rewrite toks_app, <- app_assoc in *. apply (calm_run logger m ts subs (toks ls ++ r) R); auto. constructor; [now apply between_calm|constructor].
  - intros f insub LF. rewrite toks_app, <- app_assoc in *. apply (doc_run logger m n args vs b t ts subs (toks ls ++ r) R D N T); auto. apply IH. now rewrite <- app_assoc.
  - intros f insub LF. rewrite toks_app, <- app_assoc in *. apply (undoc_run logger m n b ts subs (toks ls ++ r) R U); auto. apply IH. now rewrite <- app_assoc.
Qed.
Lemma end_module_facts n e : end_module n e -> table_match e = None /\ contains_match e = false /\ type_def_line e = Ok None.
Proof.
  intros (w0 & k & w1 & t & w2 & r & -> & W0 & K & _). destruct (word_line w0 k (w1 ++ t ++ w2 ++ n ++ r) _ _ W0 K eq_refl) as [A _]. pose proof (word_contains w0 k (w1 ++ t ++ w2 ++ n ++ r) _ _ W0 K eq_refl eq_refl) as B.
  split; auto. split; auto. apply C115_other_statements. now apply (begins_differ (L "type") w0 k _ _ _ W0 K).
Qed.
Lemma module_end logger m e r ts subs : end_module m e -> forall f insub, length (St e :: r) < f -> module_scan f logger m m (St e :: r) None insub false ts subs = Ok (r, ts, subs).
Proof.
  intros E f insub LF. destruct f as [|f]; [cbn in LF; lia|]. destruct (end_module_facts m e E) as (A & B & _). cbn [module_scan]. rewrite B, andb_false_r, A, (endmod_yes m e E). cbn [orb]. now rewrite str_eqb_refl.
Qed.

(* ---- types ---- *)
Lemma definition_facts n d : definition_line n d ->
  (exists a p, type_def_line d = Ok (Some (n, a, p))) /\ table_match d = None /\ endmod_match d = None /\ endtype_match d = false /\ contains_match d = false /\
  (forall logger vs, data_stmt logger vs d = Ok vs).
Proof.
  intros H.
  assert (X : (exists a p, type_def_line d = Ok (Some (n, a, p))) /\ exists w0 t r, d = w0 ++ t ++ r /\ blank w0 /\ spells t (L "type") /\ starts_c "(" (lstrip r) = false).
  { destruct H as [(al & ps & H)|(ps & H)].
    - split; [rewrite (C115_definition _ _ _ _ H); eauto|]. destruct H as (w0 & t & w1 & w2 & g & w3 & c & -> & W0 & T & W1 & _). eexists w0, t, _. split; [reflexivity|]. split; auto. split; auto.
      rewrite lstrip_blank by auto. destruct al; reflexivity.
    - split; [rewrite (C115_short_definition _ _ _ H); eauto|]. destruct H as (w0 & t & w1 & g & w3 & c & -> & W0 & T & W1 & _ & _ & _ & _ & I & _). eexists w0, t, _. split; [reflexivity|]. split; auto. split; auto.
      rewrite ls_id by auto. destruct I as (a & z & -> & A & _). cbn. destruct (Ascii.eqb_spec a "("); [subst; discriminate|reflexivity]. }
  destruct X as (X & w0 & t & r & -> & W0 & T & NP). split; auto. destruct (word_facts w0 t r (L "type") W0 T ltac:(cbn; tauto)) as (A & B & C & D & E & F & G). split; auto. split; auto. split; auto. split; auto.
  intros logger vs. unfold data_stmt. rewrite B. cbn [bind]. rewrite C116_no_declaration; [reflexivity| | |].
  - intros w I. unfold type_words in I. cbn [map] in I. repeat (destruct I as [<-|I]; [now apply (begins_differ _ w0 t r _ _ W0 T)|]). destruct I.
  - intros (a & u & v & q & E1 & W & U & V). assert (Y := f_equal lstrip E1). rewrite (ls_word w0 t r _ _ W0 T eq_refl), (ls_word a u _ _ _ W U eq_refl) in Y. assert (Z := aw_yes u (L "type") (v ++ L "(" ++ q) U). rewrite <- Y, (aw_yes t (L "type") r T) in Z. injection Z as ->.
    destruct (blank_head v (L "(" ++ q) V eq_refl) as [_ X2]. cbn in X2, NP. rewrite X2 in NP. discriminate.
  - intros (a & u & v & q & E1 & W & U & V). assert (N : ~ begins (L "class") (w0 ++ t ++ r)) by now apply (begins_differ (L "class") w0 t r _ _ W0 T). apply N. exists a, u, (v ++ L "(" ++ q). auto.
Qed.
Lemma other_data logger s vs : ~ blank s -> comment_line s \/ no_declaration s -> data_stmt logger vs s = Ok vs.
Proof.
  intros NB H. unfold data_stmt. destruct H as [H|(A & B & C)]; [now rewrite (comment_yes s H)|]. destruct (comment_cases s NB) as (b & -> & _). cbn [bind]. destruct b; [reflexivity|]. now rewrite C116_no_declaration.
Qed.
Lemma data_run logger b vs : data (fun s => ~ end_of (L "type") s /\ ~ begins (L "contains") s) b vs -> forall r vs0 hdr, distinct (vs0 ++ vs) ->
  type_scan logger (toks b ++ r) true false vs0 hdr = type_scan logger r true false (vs0 ++ vs) hdr.
Proof.
  induction 1 as [|s ls h T K ddt al el vs vs' H D N F A IH|s ls vs (E & C) NB Q A IH]; intros r vs0 hdr DI; [now rewrite app_nil_r| |].
  - rewrite toks_cons. cbn [app type_scan]. destruct (decl_facts h T K ddt al el s H D) as (_ & X & _ & _ & -> & _ & ->). cbn [andb negb]. unfold data_stmt. rewrite X. cbn [bind]. rewrite (data_decl logger h T K ddt al el s vs H D N F). cbn [bind].
    rewrite app_assoc in DI. rewrite add_ok; [|unfold distinct in *; rewrite map_app in DI; now apply nodup_l in DI]. cbn [bind]. rewrite IH by auto. now rewrite app_assoc.
  - rewrite toks_cons. cbn [app type_scan]. rewrite (endtype_no s E), (contains_no s C). cbn [andb negb]. rewrite other_data by auto. cbn [bind]. now apply IH.
Qed.
Lemma bound_run logger l : Forall (fun s => ~ end_of (L "type") s) l -> forall r vs hdr, type_scan logger (toks l ++ r) true true vs hdr = type_scan logger r true true vs hdr.
Proof.
  induction 1 as [|s l E F IH]; intros r vs hdr; [reflexivity|]. rewrite toks_cons. cbn [app type_scan]. rewrite (endtype_no s E). cbn [andb negb]. destruct (contains_match s); apply IH.
Qed.
Lemma type_run logger n vs ls r : type_block n vs ls -> type_scan logger (toks ls ++ r) true false [] None = Ok (r, Some vs).
Proof.
  intros (d & b & c & e & -> & DF & DA & DI & C & E). destruct (definition_facts n d DF) as (_ & _ & _ & D1 & D2 & D3). rewrite toks_cons. cbn [app type_scan]. rewrite D1, D2. cbn [andb negb]. rewrite D3. cbn [bind].
  rewrite !toks_app, <- !app_assoc. rewrite (data_run logger b vs DA) by auto. cbn [app].
  assert (END : forall seen, type_scan logger (toks [e] ++ r) true seen vs None = Ok (r, Some vs)) by (intros seen; rewrite toks_cons; cbn [app type_scan]; now rewrite (endtype_yes e E)).
  destruct C as [->|(k & l & -> & BK & F)]; [apply END|]. destruct (contains_facts k BK) as (K1 & _ & _ & _ & K2 & _). rewrite toks_cons. cbn [app type_scan]. rewrite K1, K2. cbn [andb]. rewrite bound_run by auto. apply END.
Qed.
Lemma plain_facts s : plain_line s -> table_match s = None /\ endmod_match s = None /\ type_def_line s = Ok None /\ contains_match s = false.
Proof. intros (I & T & C). destruct (inside_facts s I). split; auto. split; auto. split; [now apply no_type_none|now apply contains_no]. Qed.
Lemma same_false n t : ~ same n t -> same_name n t = false.
Proof. intros N. unfold same_name. destruct (str_eqb (lower n) (lower t)) eqn:E; auto. apply str_eqb_eq in E. easy. Qed.
Lemma same_true n t : same n t -> same_name n t = true.
Proof. intros H. unfold same_name. rewrite H. apply str_eqb_refl. Qed.
(* ---- the specification part ---- *)
Definition stop_line (c : str) : Prop := table_match c = None /\ type_def_line c = Ok None /\ ((match endmod_match c with Some _ => true | None => false end) || contains_match c)%bool = true.
Lemma preface_run logger m a ls ts vs : preface m a ls ts vs -> forall f c r vs0 hs, stop_line c -> distinct (vs0 ++ vs) -> length (toks ls ++ St c :: r) < f ->
  preamble f logger m (toks ls ++ St c :: r) a vs0 hs = Ok (St c :: r, hs ++ ts ++ [mkT m "module" m (vs0 ++ vs)]).
Proof.
  induction 1 as [a|a n s ls ts vs D P IH|t n tv b ls ts vs SN TB P IH|a n tv b ls ts vs SN TB P IH|a s ls ts vs NA PL NB P IH|a s ls ts vs PL NB Q P IH|t s ls ts vs vs' h T K ddt al el SN H D N F P IH]; intros f c r vs0 hs ST DI LF.
  - cbn [toks tokens map List.concat app] in *. destruct f as [|f]; [cbn in LF; lia|]. destruct ST as (A & B & C). cbn [preamble]. rewrite B. cbn [bind]. rewrite A, C. now rewrite app_nil_r.
  - rewrite toks_cons in *. cbn [app length] in LF. destruct f as [|[|f]]; [lia|lia|]. destruct (document_facts n s D) as (_ & B & _). cbn [app]. set (k := S f). cbn [preamble]. rewrite B. cbn [bind]. rewrite (table_yes n s D). unfold k. cbn [preamble]. apply IH; auto. lia.
  - rewrite toks_app, <- app_assoc in *. destruct (TB) as (d & b' & cc & e & -> & DF & _). destruct (definition_facts n d DF) as ((x & p & E) & D1 & D2 & _ & D3 & _). pose proof (type_run logger n tv _ (toks ls ++ St c :: r) TB) as TR.
    rewrite toks_cons in *. cbn [app length] in LF. destruct f as [|f]; [lia|]. cbn [app] in *. cbn [preamble]. rewrite E. cbn [bind]. rewrite D1, D2, D3. cbn [orb]. unfold ModSpec.same in *. rewrite TR. cbn [bind fst snd]. rewrite (same_true n t SN).
    rewrite IH; auto; [now rewrite <- app_assoc|]. rewrite app_length in LF. lia.
  - rewrite toks_app, <- app_assoc in *. destruct (TB) as (d & b' & cc & e & -> & DF & _). destruct (definition_facts n d DF) as ((x & p & E) & D1 & D2 & _ & D3 & _). pose proof (type_run logger n tv _ (toks ls ++ St c :: r) TB) as TR.
    rewrite toks_cons in *. cbn [app length] in LF. destruct f as [|f]; [lia|]. cbn [app] in *. cbn [preamble]. rewrite E. cbn [bind]. rewrite D1, D2, D3. cbn [orb]. rewrite TR. cbn [bind fst snd].
    assert (LL : length (toks ls ++ St c :: r) < f) by (rewrite app_length in LF; lia). destruct a as [t|]; [rewrite (same_false n t (SN t eq_refl))|]; now apply IH.
  - rewrite toks_cons in *. cbn [app length] in LF. destruct f as [|[|f]]; [lia|lia|]. destruct (plain_facts s PL) as (A & B & C & D). cbn [app]. set (k := S f). cbn [preamble]. rewrite C. cbn [bind]. rewrite A, B, D. cbn [orb].
    destruct a as [t|]; [|unfold k; cbn [preamble]; apply IH; auto; lia]. destruct (comment_cases s NB) as (bb & -> & _). cbn [bind]. rewrite (same_false t m (NA t eq_refl)), andb_false_r. unfold k. cbn [preamble]. apply IH; auto. lia.
  - rewrite toks_cons in *. cbn [app length] in LF. destruct f as [|[|f]]; [lia|lia|]. destruct (plain_facts s PL) as (A & B & C & D). cbn [app]. set (k := S f). cbn [preamble]. rewrite C. cbn [bind]. rewrite A, B, D. cbn [orb].
    destruct a as [t|]; [|unfold k; cbn [preamble]; apply IH; auto; lia]. assert (GO : preamble k logger m (NL :: toks ls ++ St c :: r) (Some t) vs0 hs = Ok (St c :: r, hs ++ ts ++ [mkT m "module" m (vs0 ++ vs)])) by (unfold k; cbn [preamble]; apply IH; auto; lia).
    destruct Q as [Q|(Q1 & Q2 & Q3)]; [rewrite (comment_yes s Q); exact GO|]. destruct (comment_cases s NB) as (bb & -> & _). cbn [bind]. destruct (negb bb && same_name t m)%bool; [|exact GO]. rewrite C116_no_declaration by auto. cbn [bind add_vars]. exact GO.
  - rewrite toks_cons in *. cbn [app length] in LF. destruct f as [|[|f]]; [lia|lia|]. destruct (decl_facts h T K ddt al el s H D) as (A & X & B & _ & _ & _ & C). cbn [app]. set (k := S f). cbn [preamble]. rewrite (no_type_none s (decl_no_type h T K ddt al el s H D)). cbn [bind]. rewrite A, B, C. cbn [orb].
    rewrite X. cbn [bind negb andb]. rewrite (same_true t m SN). rewrite (data_decl logger h T K ddt al el s vs H D N F). cbn [bind]. rewrite app_assoc in DI. rewrite add_ok; [|unfold distinct in *; rewrite map_app in DI; now apply nodup_l in DI]. cbn [bind].
    unfold k. cbn [preamble]. rewrite IH; auto; [now rewrite <- (app_assoc vs0)|lia].
Qed.
Lemma opening_run logger m o : opening o -> forall f r R, (forall f, length r < f -> spec_scan f logger m r [] = R) -> length (toks o ++ r) < f -> spec_scan f logger m (toks o ++ r) [] = R.
Proof.
  induction 1 as [|s ls PL O IH|n vs b ls TB O IH]; intros f r R GO LF; [now apply GO| |].
  - rewrite toks_cons in *. cbn [app length] in LF. destruct f as [|[|f]]; [lia|lia|]. destruct (plain_facts s PL) as (A & B & C & D). cbn [app]. set (k := S f). cbn [spec_scan]. rewrite C. cbn [bind]. rewrite A, B, D. unfold k. cbn [spec_scan]. apply IH; auto. lia.
  - rewrite toks_app, <- app_assoc in *. destruct (TB) as (d & b' & cc & e & -> & DF & _). destruct (definition_facts n d DF) as ((x & p & E) & D1 & D2 & _ & D3 & _). pose proof (type_run logger n vs _ (toks ls ++ r) TB) as TR.
    rewrite toks_cons in *. cbn [app length] in LF. destruct f as [|f]; [lia|]. cbn [app] in *. cbn [spec_scan]. rewrite E. cbn [bind]. rewrite D1, D2. rewrite TR. cbn [bind fst snd]. apply IH; auto. rewrite app_length in LF. lia.
Qed.
(* the scanner stops at the line c: contains, or the end of the module *)
Lemma specification_run logger m sp ts : specification m sp ts -> forall f c r, stop_line c -> length (toks sp ++ St c :: r) < f ->
  spec_scan f logger m (toks sp ++ St c :: r) [] = Ok (r, ts).
Proof.
  assert (FIN : forall c r tx f, stop_line c -> length (St c :: r) < f -> spec_scan f logger m (St c :: r) tx = Ok (r, tx)).
  { clear. intros c r tx f (A & B & C) LF. destruct f as [|f]; [cbn in LF; lia|]. cbn [spec_scan]. rewrite B. cbn [bind]. rewrite A. revert C. destruct (endmod_match c); [reflexivity|]. cbn [orb]. now intros ->. }
  intros S f c r ST LF. destruct S as [o O|o n s ls ts vs O D P DI].
  - apply (opening_run logger m o O); auto.
  - rewrite toks_app, <- app_assoc in *. apply (opening_run logger m o O); auto. intros f' LF'. rewrite toks_cons in *. cbn [app length] in LF'. destruct f' as [|f']; [lia|]. destruct (document_facts n s D) as (_ & B & C). cbn [app spec_scan]. rewrite B. cbn [bind]. rewrite C, (table_yes n s D).
    assert (PR : preamble (S (length (St s :: NL :: toks ls ++ St c :: r))) logger m (St s :: NL :: toks ls ++ St c :: r) None [] [] = Ok (St c :: r, ts ++ [mkT m "module" m vs])).
    { cbn [length]. set (i := S (length (toks ls ++ St c :: r))). set (j := S i). cbn [preamble]. rewrite B. cbn [bind]. rewrite (table_yes n s D). unfold j. cbn [preamble]. unfold i. rewrite (preface_run logger m (Some n) ls ts vs P _ c r [] []); auto. }
    rewrite PR. cbn [bind fst snd app]. apply FIN; auto. rewrite app_length in LF'. lia.
Qed.
Lemma contains_stop c : begins (L "contains") c -> stop_line c.
Proof. intros B. destruct (contains_facts c B) as (C1 & C2 & C3 & _ & _ & _ & C7). split; auto. split; auto. rewrite C1. apply orb_true_r. Qed.
Lemma end_stop m e : end_module m e -> stop_line e.
Proof. intros E. destruct (end_module_facts m e E) as (A & _ & B). split; auto. split; auto. now rewrite (endmod_yes m e E). Qed.
(* a module; r are the lines after it *)
Lemma module_run logger s ls ts us : a_module (s :: ls) ts us -> exists m, module_stmt m s /\ forall r, parse_module logger m (NL :: toks ls ++ r) = Ok (NL :: r, ts, us).
Proof.
  intros (m & s' & sp & c & b & e & t1 & t2 & E & MS & SP & C & P & EM & ->). injection E as <- ->. exists m. split; auto. intros r. unfold parse_module. cbn [length].
  set (F := S (length (toks (sp ++ c :: b ++ [e]) ++ r))). cbn [spec_scan]. unfold F; clear F. rewrite toks_app, <- app_assoc. rewrite toks_cons. cbn [app]. rewrite (specification_run logger m sp t1 SP); [|now apply contains_stop|lia]. cbn [bind fst snd].
  cbn [length]. set (F := S (length (toks (b ++ [e]) ++ r))). cbn [module_scan]. unfold F; clear F. rewrite toks_app, <- app_assoc. rewrite (procedures_run logger m b t2 us P t1 [] (toks [e] ++ r) (Ok (NL :: r, t1 ++ t2, us))); auto.
  intros f insub LF. rewrite toks_cons in *. cbn [app] in *. now apply module_end.
Qed.

(* ---- files ---- *)
Lemma elsewhere_run logger ls : elsewhere ls -> forall f r ts more, length (toks ls ++ r) < f -> forall R, (forall f, length r < f -> file_scan f logger r ts more = R) -> file_scan f logger (toks ls ++ r) ts more = R.
Proof.
  induction 1 as [|s ls N F IH]; intros f r ts more LF R GO; [now apply GO|]. rewrite toks_cons in *. cbn [app length] in LF. destruct f as [|[|f]]; [lia|lia|]. cbn [app]. set (k := S f). cbn [file_scan]. rewrite (module_no s N). unfold k. cbn [file_scan]. apply IH; auto. lia.
Qed.
Lemma file_module logger ls us ts' : a_module ls ts' us -> forall f r ts more R, length (toks ls ++ r) < f -> (forall f, length r < f -> file_scan f logger r (ts ++ ts') (Some us) = R) -> file_scan f logger (toks ls ++ r) ts more = R.
Proof.
  intros M f r ts more R LF GO. destruct ls as [|s ls]; [destruct M as (? & ? & ? & ? & ? & ? & ? & ? & E & _); discriminate|]. destruct (module_run logger s ls ts' us M) as (m & MS & X).
  rewrite toks_cons in *. cbn [app length] in LF. destruct f as [|f]; [lia|]. cbn [app file_scan]. rewrite (module_yes m s MS). rewrite X. cbn [bind]. destruct f as [|f]; [lia|]. cbn [file_scan]. apply GO. rewrite app_length in LF. lia.
Qed.
