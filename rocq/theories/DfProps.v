(* DfProps.v: C103-C105, the queries of a datatable that was written and read back. *)
From Coq Require Import Lia Sorting.Sorted Sorting.Permutation.
From Verif Require Import PyStr ReqModel ReqProofs MkProofs XmlModel XmlSpec XmlProofs XmlProps CheckProofs DfModel DfSpec.
Open Scope nat_scope.
Open Scope list_scope.

(* ---- the tree that is read ---- *)
Lemma kept_inv g a x ks t : kept (Elem g a x ks) t ->
  t_tag t = g /\ t_attrs t = a /\ Forall2 kept ks (t_kids t) /\
  (ks = [] -> t_text t = match strip x with [] => None | y => Some y end).
Proof.
  intros H. inversion H as [? ? ? ? x' ks' A B C]; subst. repeat split.
  - cbn [t_kids]. clear -C. induction C; cbn; constructor; auto.
  - intros ->. cbn [t_text]. rewrite B by auto. now destruct (strip x).
Qed.
Lemma datatable_kept d t : datatable d t -> exists e, generate d = Ok e /\ kept e t.
Proof.
  intros (e & out & G & W & Wr & R). destruct (C101_kept e out W Wr) as (t' & R' & K). exists e. split; auto.
  now rewrite (C101_unique _ _ _ R R').
Qed.
Lemma kept_leaf g x t : kept (leaf g x) t -> file_name x -> t_tag t = g /\ t_text t = Some x.
Proof.
  intros K [N S]. apply kept_inv in K as (A & _ & _ & B). split; auto. rewrite B by auto. rewrite S. destruct x; [congruence|reflexivity].
Qed.
Lemma kept_tag e t g a x ks : kept e t -> e = Elem g a x ks -> t_tag t = g.
Proof. intros K ->. now apply kept_inv in K as (A & _). Qed.
Lemma section_files_ok s fs : Forall2 kept (map (leaf (L "file")) fs) (t_kids s) -> Forall file_name fs ->
  section_files s = Ok (map Some fs).
Proof.
  unfold section_files. generalize (t_kids s). induction fs as [|f fs IH]; intros ks H F; inversion H; inversion F; subst; cbn [map map_r]; auto.
  destruct (kept_leaf _ _ _ H2 H7) as [A B]. rewrite A. cbn [str_eqb]. change (str_eqb (L "file") (L "file")) with true. cbn iota. cbn [bind].
  rewrite (IH _ H4 H8). cbn [bind]. now rewrite B.
Qed.
Lemma all_some_map l : all_some (map Some l) = Ok l.
Proof. induction l as [|x l IH]; auto. cbn. now rewrite IH. Qed.

Record sections (d : dinput) (t : tree) : Prop := mkSecs {
  sec_files : exists f u h s, t_find (L "ccpp_files") t = Some f /\ t_kids f = [u; h; s] /\
     t_tag u = L "utilities" /\ t_tag h = L "host_files" /\ t_tag s = L "suite_files" /\
     Forall2 kept (map (leaf (L "file")) [di_kinds d; path_join (di_src d) (L "ccpp_constituent_prop_mod.F90");
        path_join (di_src d) (L "ccpp_hashable.F90"); path_join (di_src d) (L "ccpp_hash_table.F90")]) (t_kids u) /\
     Forall2 kept (map (leaf (L "file")) (di_host_files d)) (t_kids h) /\
     Forall2 kept (map (leaf (L "file")) (di_suite_files d)) (t_kids s);
  sec_schemes : exists s es, t_find (L "schemes") t = Some s /\ dup_title [] (di_headers d) = false /\
     map_r (new_scheme_entry (di_headers d)) (di_calls d) = Ok es /\ Forall2 kept es (t_kids s);
  sec_suites : exists a s, t_find (L "api") t = Some a /\ t_find (L "suites") a = Some s /\
     Forall2 kept (map (fun s => Elem (L "suite") [(L "name", ds_name s); (L "filename", ds_file s)] [] (ds_groups s)) (di_suites d)) (t_kids s);
  sec_deps : exists s, t_find (L "dependencies") t = Some s /\
     Forall2 kept (map (leaf (L "dependency")) (di_host_deps d ++ di_scheme_deps d)) (t_kids s) }.
Lemma F2_cons_inv {A B} (R : A -> B -> Prop) a l m : Forall2 R (a :: l) m -> exists b m', m = b :: m' /\ R a b /\ Forall2 R l m'.
Proof. intros H. inversion H; subst. eauto. Qed.
Lemma F2_nil_inv {A B} (R : A -> B -> Prop) m : Forall2 R [] m -> m = [].
Proof. intros H. now inversion H. Qed.
Lemma datatable_sections d t : datatable d t -> sections d t.
Proof.
  intros H. apply datatable_kept in H as (e & G & K). unfold generate in G.
  destruct (dup_title [] (di_headers d)) eqn:Du; [discriminate|].
  destruct (map_r (new_scheme_entry (di_headers d)) (di_calls d)) as [es|] eqn:Es; [|discriminate]. cbn [bind] in G. injection G as <-.
  apply kept_inv in K as (_ & _ & K & _).
  apply F2_cons_inv in K as (t1 & m1 & E1 & K1 & K). apply F2_cons_inv in K as (t2 & m2 & -> & K2 & K).
  apply F2_cons_inv in K as (t3 & m3 & -> & K3 & K). apply F2_cons_inv in K as (t4 & m4 & -> & K4 & K).
  apply F2_cons_inv in K as (t5 & m5 & -> & K5 & K). apply F2_nil_inv in K as ->.
  unfold add_generated_files in K1. unfold add_dependencies in K5.
  apply kept_inv in K1 as (G1 & _ & K1 & _). apply kept_inv in K2 as (G2 & _ & K2 & _). apply kept_inv in K3 as (G3 & _ & K3 & _).
  apply kept_inv in K4 as (G4 & _). apply kept_inv in K5 as (G5 & _ & K5 & _).
  constructor.
  - apply F2_cons_inv in K1 as (u & m & Eu & Ku & K1). apply F2_cons_inv in K1 as (h & m' & -> & Kh & K1).
    apply F2_cons_inv in K1 as (s & m'' & -> & Ks & K1). apply F2_nil_inv in K1 as ->.
    apply kept_inv in Ku as (Gu & _ & Ku & _). apply kept_inv in Kh as (Gh & _ & Kh & _). apply kept_inv in Ks as (Gs & _ & Ks & _).
    exists t1, u, h, s. repeat split; auto. unfold t_find. rewrite E1. cbn [List.find]. now rewrite G1.
  - exists t2, es. repeat split; auto. unfold t_find. rewrite E1. cbn [List.find]. rewrite G1, G2. reflexivity.
  - apply F2_cons_inv in K3 as (s & m & Em & Ks & K3). apply kept_inv in Ks as (Gs & _ & Ks & _).
    exists t3, s. repeat split; auto.
    + unfold t_find. rewrite E1. cbn [List.find]. rewrite G1, G2, G3. reflexivity.
    + unfold t_find. rewrite Em. cbn [List.find]. now rewrite Gs.
  - exists t5. split.
    + unfold t_find. rewrite E1. cbn [List.find]. rewrite G1, G2, G3, G4, G5. reflexivity.
    + rewrite map_app. exact K5.
Qed.

(* ---------------- C103 ---------------- *)
Lemma path_of_join dir name f : path_of dir name f -> f = path_join dir name.
Proof.
  intros H. unfold path_join. destruct H as [name|dir name|dir c name N]; auto.
  - change (L "/") with ["/"%char]. rewrite last_last. destruct (dir ++ ["/"%char]) eqn:E; [now destruct dir|]. rewrite <- E, <- app_assoc. reflexivity.
  - rewrite last_last. destruct (dir ++ [c]) eqn:E; [now destruct dir|]. rewrite <- E. apply Ascii.eqb_neq in N. rewrite N, <- app_assoc. reflexivity.
Qed.
(* The file queries give exactly the files that were generated, in order. *)
Theorem C103_files d t sep (u1 u2 u3 : str) (utils : list str) : datatable d t ->
  path_of (di_src d) (L "ccpp_constituent_prop_mod.F90") u1 -> path_of (di_src d) (L "ccpp_hashable.F90") u2 ->
  path_of (di_src d) (L "ccpp_hash_table.F90") u3 -> utils = [di_kinds d; u1; u2; u3] ->
  Forall file_name (utils ++ di_host_files d ++ di_suite_files d) ->
  datatable_report t (L "ccpp_files") sep = Ok (join sep (utils ++ di_host_files d ++ di_suite_files d)) /\
  datatable_report t (L "utility_files") sep = Ok (join sep utils) /\
  datatable_report t (L "host_files") sep = Ok (join sep (di_host_files d)) /\
  datatable_report t (L "suite_files") sep = Ok (join sep (di_suite_files d)).
Proof.
  intros D P1 P2 P3 U F. apply path_of_join in P1, P2, P3. rewrite P1, P2, P3 in U. destruct (sec_files _ _ (datatable_sections _ _ D)) as (f & u & h & s & Ef & Ek & Gu & Gh & Gs & Ku & Kh & Ks).
  rewrite <- U in Ku. apply Forall_app in F as [F1 F]. apply Forall_app in F as [F2 F3].
  pose proof (section_files_ok u _ Ku F1) as Su. pose proof (section_files_ok h _ Kh F2) as Sh. pose proof (section_files_ok s _ Ks F3) as Ss.
  assert (A : forall ft, retrieve_ccpp_files t ft =
     (l <- map_r section_files (List.filter (fun x => match ft with None => true | Some y => str_eqb (t_tag x) y end) [u; h; s]) ;; Ok (List.concat l))).
  { intros ft. unfold retrieve_ccpp_files. rewrite Ef, Ek. reflexivity. }
  assert (B : forall ft l, retrieve_ccpp_files t ft = Ok (map Some l) ->
     (r <- retrieve_ccpp_files t ft ;; l <- all_some r ;; Ok (join sep l)) = Ok (join sep l)).
  { intros ft l E. rewrite E. cbn [bind]. rewrite all_some_map. reflexivity. }
  unfold datatable_report. cbn [str_eqb]. repeat split.
  - apply (B None). rewrite A. cbn [List.filter map_r]. rewrite Su, Sh, Ss. cbn [bind]. cbn [List.concat]. now rewrite app_nil_r, !map_app.
  - apply (B (Some (L "utilities"))). rewrite A. cbn [List.filter]. rewrite Gu, Gh, Gs. change (str_eqb (L "utilities") (L "utilities")) with true.
    change (str_eqb (L "host_files") (L "utilities")) with false. change (str_eqb (L "suite_files") (L "utilities")) with false. cbn iota. cbn [map_r].
    rewrite Su. cbn [bind List.concat]. now rewrite app_nil_r.
  - apply (B (Some (L "host_files"))). rewrite A. cbn [List.filter]. rewrite Gu, Gh, Gs. change (str_eqb (L "host_files") (L "host_files")) with true.
    change (str_eqb (L "utilities") (L "host_files")) with false. change (str_eqb (L "suite_files") (L "host_files")) with false. cbn iota. cbn [map_r].
    rewrite Sh. cbn [bind List.concat]. now rewrite app_nil_r.
  - apply (B (Some (L "suite_files"))). rewrite A. cbn [List.filter]. rewrite Gu, Gh, Gs. change (str_eqb (L "suite_files") (L "suite_files")) with true.
    change (str_eqb (L "utilities") (L "suite_files")) with false. change (str_eqb (L "host_files") (L "suite_files")) with false. cbn iota. cbn [map_r].
    rewrite Ss. cbn [bind List.concat]. now rewrite app_nil_r.
Qed.
Print Assumptions C103_files.
(* The suite query gives the names of the suites, in order. *)
Theorem C103_suites d t sep : datatable d t ->
  datatable_report t (L "suite_list") sep = Ok (join sep (map ds_name (di_suites d))).
Proof.
  intros D. destruct (sec_suites _ _ (datatable_sections _ _ D)) as (a & s & Ea & Es & K).
  unfold datatable_report. cbn [str_eqb]. change (bind (retrieve_suite_list t) (fun r => l <- all_some r ;; Ok (join sep l)) = Ok (join sep (map ds_name (di_suites d)))).
  unfold retrieve_suite_list. rewrite Ea, Es. cbn [bind].
  assert (X : map (t_get (L "name")) (t_kids s) = map Some (map ds_name (di_suites d))).
  { revert K. generalize (t_kids s). induction (di_suites d) as [|x l IH]; intros m K; [apply F2_nil_inv in K as ->; reflexivity|].
    cbn [map] in K. apply F2_cons_inv in K as (b & m' & -> & Kb & K). cbn [map]. rewrite (IH _ K). f_equal.
    apply kept_inv in Kb as (_ & At & _). unfold t_get. rewrite At. reflexivity. }
  rewrite X, all_some_map. reflexivity.
Qed.
Print Assumptions C103_suites.

(* ---------------- C104 ---------------- *)
Lemma leb_le a : forall b, str_leb a b = true -> str_le a b.
Proof.
  induction a as [|x a IH]; intros [|y b] H; cbn in H; try apply le_nil; try discriminate.
  destruct (Ascii.eqb_spec x y) as [->|N]; [apply le_eq; auto|]. apply le_lt. apply Nat.leb_le in H.
  assert (code x <> code y). { intros E. apply N. unfold code in E. apply (f_equal ascii_of_nat) in E. now rewrite !ascii_nat_embedding in E. } lia.
Qed.
Lemma in_order_sorted l : in_order (sorted l).
Proof.
  assert (I : forall x m, StronglySorted (fun a b => str_leb a b = true) m -> StronglySorted (fun a b => str_leb a b = true) (insert x m)).
  { intros x m H. induction H as [|y m H IH F]; cbn [insert]; [repeat constructor|]. destruct (str_leb x y) eqn:E.
    - constructor; [constructor; auto|]. constructor; auto. eapply Forall_impl; [|exact F]. intros z Z. eapply leb_trans; eauto.
    - constructor; auto. assert (T : str_leb y x = true) by (destruct (leb_total x y); congruence).
      clear -T F. induction m as [|z m IH]; cbn [insert]; [constructor; auto|]. inversion F; subst. destruct (str_leb x z); constructor; auto. }
  assert (S : StronglySorted (fun a b => str_leb a b = true) (sorted l)).
  { unfold sorted. induction l as [|x l IH]; cbn [fold_right]; [constructor|]. now apply I. }
  unfold in_order. clear I. induction S as [|a m S IH F]; constructor; auto. eapply Forall_impl; [|exact F]. intros z Z. now apply leb_le.
Qed.
Lemma union_nil_in l x : In x (s_union [] l) <-> In x l.
Proof.
  unfold s_union. assert (G : forall acc, In x (fold_left s_add l acc) <-> In x acc \/ In x l).
  { induction l as [|y l IH]; intros acc; cbn [fold_left]; [cbn; tauto|]. rewrite IH. unfold s_add. destruct (mem y acc) eqn:M.
    - apply mem_in in M. cbn. split; [tauto|]. intros [A|[<-|A]]; auto.
    - rewrite in_app_iff. cbn. tauto. }
  rewrite G. cbn. tauto.
Qed.
(* The dependencies of the host and of the schemes are each listed once, in order. *)
Theorem C104_dependencies d t sep : datatable d t -> Forall file_name (di_host_deps d ++ di_scheme_deps d) ->
  exists l, datatable_report t (L "dependencies") sep = Ok (join sep l) /\ in_order l /\ NoDup l /\
            forall x, In x l <-> In x (di_host_deps d) \/ In x (di_scheme_deps d).
Proof.
  intros D F. destruct (sec_deps _ _ (datatable_sections _ _ D)) as (s & Es & K).
  assert (X : flat_map (fun e => match t_text e with Some x => [x] | None => [] end) (t_kids s) = di_host_deps d ++ di_scheme_deps d).
  { revert K F. generalize (t_kids s). induction (di_host_deps d ++ di_scheme_deps d) as [|x l IH]; intros m K F; [apply F2_nil_inv in K as ->; reflexivity|].
    cbn [map] in K. apply F2_cons_inv in K as (b & m' & -> & Kb & K). inversion F; subst. cbn [flat_map]. rewrite (IH _ K) by auto.
    destruct (kept_leaf _ _ _ Kb H1) as [_ ->]. reflexivity. }
  exists (sorted (s_union [] (di_host_deps d ++ di_scheme_deps d))). split; [|split; [apply in_order_sorted|split]].
  - unfold datatable_report. cbn [str_eqb]. change (bind (retrieve_dependencies t) (fun r => l <- all_some r ;; Ok (join sep l)) = Ok (join sep (sorted (s_union [] (di_host_deps d ++ di_scheme_deps d))))).
    unfold retrieve_dependencies. rewrite Es, X. cbn [bind]. now rewrite all_some_map.
  - apply nd_sorted, nd_union. constructor.
  - intros x. rewrite in_sorted, union_nil_in, in_app_iff. tauto.
Qed.
Print Assumptions C104_dependencies.

(* ---------------- C105 ---------------- *)
Lemma dup_title_nodup l : forall seen, dup_title seen l = false -> NoDup (map hd_title l) /\ forall h, In h l -> ~ In (hd_title h) seen.
Proof.
  induction l as [|h l IH]; intros seen H; cbn [dup_title] in H; [split; [constructor|intros ? []]|].
  apply orb_false_iff in H as [A B]. destruct (IH _ B) as [C D]. apply mem_not in A. split.
  - constructor; auto. intros I. apply in_map_iff in I as (h' & E & I). apply (D h' I). rewrite E. now left.
  - intros h' [<-|I] J; auto. apply (D h' I). now right.
Qed.
Lemma find_title hs s h : NoDup (map hd_title hs) -> List.find (fun h => str_eqb (hd_title h) s) hs = Some h <-> In h hs /\ hd_title h = s.
Proof.
  intros N. split.
  - intros F. apply find_some in F as [A B]. now apply str_eqb_eq in B.
  - intros [A B]. induction hs as [|x hs IH]; [destruct A|]. cbn [map] in N. inversion N; subst. cbn [List.find].
    destruct A as [->|A]; [now rewrite str_eqb_refl|]. destruct (str_eqb (hd_title x) (hd_title h)) eqn:E; auto.
    apply str_eqb_eq in E. exfalso. apply H1. rewrite E. now apply in_map.
Qed.
Definition call_module (hs : list header) (c : scall) : list str :=
  if sc_has c then match List.find (fun h => str_eqb (hd_title h) (sc_sub c)) hs with
                   | Some h => match hd_module h with [] => [] | m => [m] end | None => [] end else [].
Definition call_process (hs : list header) (c : scall) : list str :=
  if sc_has c then match List.find (fun h => str_eqb (hd_title h) (sc_sub c)) hs with
                   | Some h => match (if str_eqb (hd_process h) (L "UNKNOWN") then [] else hd_process h) with
                               | [] => [] | p => [p ++ L "=" ++ sc_name c] end | None => [] end else [].
Lemma entry_read hs c e k : new_scheme_entry hs c = Ok e -> kept e k ->
  flat_map (fun p => match t_get (L "module") p with Some m => [m] | None => [] end) (t_kids k) = call_module hs c /\
  match t_get (L "process") k with Some (c0 :: p) => [(c0 :: p) ++ L "=" ++ str_of_opt (t_get (L "name") k)] | _ => [] end = call_process hs c.
Proof.
  unfold new_scheme_entry, call_module, call_process. intros H K.
  destruct (if sc_run c then sc_group c else sc_phase c) as [|a tg] eqn:T; [discriminate|].
  destruct (sc_has c) eqn:S; cbn [negb] in H.
  - destruct (List.find _ hs) as [h|]; [|discriminate]. set (pr := if str_eqb (hd_process h) (L "UNKNOWN") then [] else hd_process h) in *. clearbody pr. injection H as <-. apply kept_inv in K as (_ & A & K & _).
    apply F2_cons_inv in K as (p & m & E & Kp & K). apply F2_nil_inv in K as ->. apply kept_inv in Kp as (_ & B & _).
    split.
    + rewrite E. cbn [flat_map]. unfold t_get. rewrite B. destruct (hd_module h); reflexivity.
    + unfold t_get. rewrite A. destruct pr; reflexivity.
  - injection H as <-. apply kept_inv in K as (_ & A & K & _). apply F2_nil_inv in K. split.
    + rewrite K. reflexivity.
    + unfold t_get. rewrite A. reflexivity.
Qed.
Lemma entries_read hs cs es ks : map_r (new_scheme_entry hs) cs = Ok es -> Forall2 kept es ks ->
  flat_map (fun e => flat_map (fun p => match t_get (L "module") p with Some m => [m] | None => [] end) (t_kids e)) ks = flat_map (call_module hs) cs /\
  flat_map (fun e => match t_get (L "process") e with Some (c :: p) => [(c :: p) ++ L "=" ++ str_of_opt (t_get (L "name") e)] | _ => [] end) ks = flat_map (call_process hs) cs.
Proof.
  revert es ks. induction cs as [|c cs IH]; intros es ks H K; cbn [map_r] in H.
  - injection H as <-. apply F2_nil_inv in K as ->. auto.
  - destruct (new_scheme_entry hs c) as [e|] eqn:E; [|discriminate]. cbn [bind] in H.
    destruct (map_r (new_scheme_entry hs) cs) as [es'|] eqn:Es; [|discriminate]. cbn [bind] in H. injection H as <-.
    apply F2_cons_inv in K as (k & ks' & -> & Kk & K). destruct (IH _ _ eq_refl K) as [A B]. destruct (entry_read _ _ _ _ E Kk) as [C D].
    cbn [flat_map]. rewrite A, B, C, D. auto.
Qed.
(* The module query lists each module of a described entry point once, in order, and no other. *)
Theorem C105_modules d t sep : datatable d t ->
  exists l, datatable_report t (L "module_list") sep = Ok (join sep l) /\ in_order l /\ NoDup l /\
            forall m, In m l <-> m <> [] /\ exists c h, described d c h /\ hd_module h = m.
Proof.
  intros D. destruct (sec_schemes _ _ (datatable_sections _ _ D)) as (s & es & Es & Du & Em & K).
  destruct (entries_read _ _ _ _ Em K) as [A _].
  exists (sorted (s_union [] (flat_map (call_module (di_headers d)) (di_calls d)))). split; [|split; [apply in_order_sorted|split]].
  - unfold datatable_report. cbn [str_eqb]. match goal with |- _ = ?rhs => change (bind (retrieve_module_list t) (fun r => l <- all_some r ;; Ok (join sep l)) = rhs) end.
    unfold retrieve_module_list. rewrite Es, A. cbn [bind]. now rewrite all_some_map.
  - apply nd_sorted, nd_union. constructor.
  - intros m. rewrite in_sorted, union_nil_in, in_flat_map. destruct (dup_title_nodup _ _ Du) as [N _]. unfold described, call_module. split.
    + intros (c & I & J). destruct (sc_has c) eqn:H; [|destruct J]. destruct (List.find _ _) as [h|] eqn:F; [|destruct J].
      apply (find_title _ _ _ N) in F as [F1 F2]. destruct (hd_module h) as [|x y] eqn:M; [destruct J|]. destruct J as [<-|[]].
      split; [discriminate|]. exists c, h. auto.
    + intros (Ne & c & h & (I & H & F1 & F2) & M). exists c. split; auto. rewrite H.
      rewrite (proj2 (find_title _ _ _ N) (conj F1 F2)). rewrite M. destruct m; [congruence|now left].
Qed.
Print Assumptions C105_modules.
(* The process query lists the process and scheme of every described entry point whose
   metadata gives a process, in order. *)
Theorem C105_processes d t sep : datatable d t ->
  exists l, datatable_report t (L "process_list") sep = Ok (join sep l) /\ in_order l /\
            forall x, In x l <-> exists c h, described d c h /\ hd_process h <> L "UNKNOWN" /\ hd_process h <> [] /\ x = hd_process h ++ L "=" ++ sc_name c.
Proof.
  intros D. destruct (sec_schemes _ _ (datatable_sections _ _ D)) as (s & es & Es & Du & Em & K).
  destruct (entries_read _ _ _ _ Em K) as [_ A].
  exists (sorted (flat_map (call_process (di_headers d)) (di_calls d))). split; [|split; [apply in_order_sorted|]].
  - unfold datatable_report. cbn [str_eqb]. match goal with |- _ = ?rhs => change (bind (retrieve_process_list t) (fun r => l <- all_some r ;; Ok (join sep l)) = rhs) end.
    unfold retrieve_process_list. rewrite Es, A. cbn [bind]. now rewrite all_some_map.
  - intros x. rewrite in_sorted, in_flat_map. destruct (dup_title_nodup _ _ Du) as [N _]. unfold described, call_process. split.
    + intros (c & I & J). destruct (sc_has c) eqn:H; [|destruct J]. destruct (List.find _ _) as [h|] eqn:F; [|destruct J].
      apply (find_title _ _ _ N) in F as [F1 F2]. destruct (str_eqb (hd_process h) (L "UNKNOWN")) eqn:U; [destruct J|]. apply str_eqb_neq in U.
      destruct (hd_process h) as [|a p] eqn:M; [destruct J|]. destruct J as [<-|[]].
      exists c, h. rewrite M. repeat split; auto; discriminate.
    + intros (c & h & (I & H & F1 & F2) & U & Ne & ->). exists c. split; auto. rewrite H.
      rewrite (proj2 (find_title _ _ _ N) (conj F1 F2)). rewrite (proj2 (str_eqb_neq _ _) U). destruct (hd_process h); [congruence|now left].
Qed.
Print Assumptions C105_processes.

(* ---- a concrete datatable ---- *)
Definition xml_nameb (s : str) : bool := nonempty s && forallb is_word s.
Definition xml_charb (c : ascii) : bool := Nat.leb 32 (code c) || Ascii.eqb c nl || Ascii.eqb c tab.
Fixpoint xml_okb (e : elem) : bool :=
  match e with
  | Elem g a x ks => xml_nameb g && forallb (fun p => xml_nameb (fst p) && forallb (fun c => xml_charb c || Ascii.eqb c cr) (snd p)) a &&
                     forallb xml_charb x && forallb xml_okb ks
  end.
Lemma xml_nameb_t s : xml_nameb s = true -> xml_name s.
Proof. unfold xml_nameb. intros H. apply andb_true_iff in H as [A B]. split; [destruct s; discriminate|]. now apply forallb_forall. Qed.
Lemma xml_charb_t c : xml_charb c = true -> xml_char c.
Proof.
  unfold xml_charb, xml_char. intros H. apply orb_true_iff in H as [H|H]; [apply orb_true_iff in H as [H|H]|].
  - left. now apply Nat.leb_le.
  - right. left. now apply Ascii.eqb_eq.
  - right. right. now apply Ascii.eqb_eq.
Qed.
Lemma xml_okb_t e : xml_okb e = true -> xml_tree e.
Proof.
  induction e as [g a x ks IH] using elem_ind'. intros H. cbn [xml_okb] in H.
  apply andb_true_iff in H as [H H4]. apply andb_true_iff in H as [H H3]. apply andb_true_iff in H as [H1 H2].
  intros tag attrs text kids W. inversion W as [E|? ? ? ? k I W' E]; subst.
  - split; [now apply xml_nameb_t|]. split.
    + intros k v I. rewrite forallb_forall in H2. specialize (H2 _ I). cbn [fst snd] in H2. apply andb_true_iff in H2 as [A B]. split; [now apply xml_nameb_t|].
      intros c J. rewrite forallb_forall in B. specialize (B _ J). apply orb_true_iff in B as [B|B]; [left; now apply xml_charb_t|right; now apply Ascii.eqb_eq].
    + intros c J. rewrite forallb_forall in H3. now apply xml_charb_t, H3.
  - rewrite forallb_forall in H4. rewrite Forall_forall in IH. exact (IH k I (H4 k I) tag attrs text kids W').
Qed.
Definition ex_d : dinput :=
  mkDI [L "/b/host_cap.F90"] [L "/b/suite_cap.F90"] (L "/b/ccpp_kinds.F90") (L "/src")
       [mkHd (L "micro_run") (L "microphysics") (L "micro"); mkHd (L "micro_init") (L "microphysics") (L "micro"); mkHd (L "rad_run") (L "UNKNOWN") (L "rad")]
       [mkSC (L "micro") (L "physics") (L "initialize") false true (L "micro_init") (L "micro.F90") [(L "errmsg", L "out", L "errmsg")];
        mkSC (L "micro") (L "physics") (L "run") true true (L "micro_run") (L "micro.F90") [];
        mkSC (L "rad") (L "physics") (L "run") true true (L "rad_run") (L "rad.F90") []]
       [mkDS (L "cam") (L "suite_cam.xml") []] [] [L "b.F90"; L "a.F90"] [L "a.F90"].
Lemma ex_datatable : exists t, datatable ex_d t.
Proof.
  destruct (generate ex_d) as [e|] eqn:G; [|vm_compute in G; discriminate].
  assert (W : xml_tree e). { apply xml_okb_t. vm_compute in G. injection G as <-. vm_compute. reflexivity. }
  destruct (proj2 (C102_written_iff e W)) as [out O].
  - apply good_t. vm_compute in G. injection G as <-. vm_compute. reflexivity.
  - destruct (C101_kept e out W O) as (t & R & _). exists t, e, out. auto.
Qed.
Example C103_ex : exists t, datatable ex_d t /\ datatable_report t (L "host_files") (L ",") = Ok (L "/b/host_cap.F90") /\
   datatable_report t (L "ccpp_files") (L ",") = Ok (L "/b/ccpp_kinds.F90,/src/ccpp_constituent_prop_mod.F90,/src/ccpp_hashable.F90,/src/ccpp_hash_table.F90,/b/host_cap.F90,/b/suite_cap.F90") /\
   datatable_report t (L "suite_list") (L ",") = Ok (L "cam").
Proof.
  destruct ex_datatable as [t D]. exists t. split; auto.
  destruct (C103_files ex_d t (L ",") _ _ _ _ D (po_dir (L "/sr") "c"%char _ ltac:(discriminate)) (po_dir (L "/sr") "c"%char _ ltac:(discriminate)) (po_dir (L "/sr") "c"%char _ ltac:(discriminate)) eq_refl) as (A & _ & B & _).
  - repeat constructor; discriminate.
  - split; [exact B|]. split; [exact A|]. exact (C103_suites ex_d t (L ",") D).
Qed.
(* Refuted: "the process query names each scheme once": a scheme with two entry points that
   give the same process is named twice. *)
Theorem C105_once_refuted : exists t, datatable ex_d t /\
  datatable_report t (L "process_list") (L ",") = Ok (L "microphysics=micro,microphysics=micro").
Proof.
  destruct ex_datatable as [t D]. exists t. split; auto.
  destruct (sec_schemes _ _ (datatable_sections _ _ D)) as (s & es & Es & Du & Em & K).
  destruct (entries_read _ _ _ _ Em K) as [_ A].
  unfold datatable_report. cbn [str_eqb]. match goal with |- _ = ?rhs => change (bind (retrieve_process_list t) (fun r => l <- all_some r ;; Ok (join (L ",") l)) = rhs) end.
  unfold retrieve_process_list. rewrite Es, A. cbn [bind]. rewrite all_some_map. vm_compute. reflexivity.
Qed.
Print Assumptions C105_once_refuted.
