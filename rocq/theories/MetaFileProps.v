(* MetaFileProps.v: C73 (reading a metadata file), C74 (finding scheme names). *)
From Verif Require Import PyStr Regex PhaseModel PhaseSpec CheckModel CheckSpec CheckProofs CheckProps ReqModel ReqProofs MetaModel MetaSpec MetaProofs MetaFile.
From Coq Require Import Lia.
Open Scope nat_scope.
Open Scope list_scope.

(* ---- C73 ---- *)
Theorem C73_parse : forall C skip dmod ddts ls ts,
  parse_metadata_file C skip dmod ddts ls = Ok ts <-> file_means C skip dmod ddts ls ts.
Proof.
  intros C skip dmod ddts ls ts. unfold parse_metadata_file, file_means, blocks.
  rewrite (file_lines_spec C skip dmod _ (fun v => In v ddts)) by first [intros v; apply mem_in|lia|constructor]. split.
  - intros (pre & bs & new & E & P & B & M & T & ND). cbn [app] in T. subst new. exists pre, bs. split; [split; [exact E|split; [intros l I; now destruct (P l I)|exact B]]|].
    split; [intros l I; now destruct (P l I)|]. auto.
  - intros (pre & bs & (E & P & B) & PB & M & ND). exists pre, bs, ts. auto 10.
Qed.
Print Assumptions C73_parse.
(* a file with a scheme of two sections; the checker accepts two properties *)
Definition demo_checker : checker :=
  mkC (fun k => if str_eqb k (L "units") then Some (fun v => Some (PText v))
                else if str_eqb k (L "type") then Some (fun v => Some (PText v))
                else if str_eqb k (L "dimensions") then Some (fun v => Some (PList (map strip (split_on "," v)))) else None)
      (fun _ => true) (fun _ _ => true).
Definition demo_file : list str := map L
  ["# a scheme"; "[ccpp-table-properties]"; "  name = rad"; "  type = scheme"; "  dependencies = a.F90, b.F90"; "";
   "[ccpp-arg-table]"; "  name = rad_run"; "  type = scheme"; "[ t ]"; "  units = K | type = real"; "  dimensions = ncol, 1:nz";
   "[ q(:,2) ]"; "  dimensions = ncol"; "  type = real";
   "[ccpp-arg-table]"; "  name = rad_init"; "  type = scheme"; "  process = radiation"; "[ n ]"; "  type = integer"]%string.
Example C73_parse_ok : exists ts, parse_metadata_file demo_checker false (L "mod") [] demo_file = Ok ts /\
  map t_name ts = [Some (L "rad")] /\ map t_deps ts = [[L "a.F90"; L "b.F90"]] /\
  map (fun t => map (fun s => (s_title s, s_module s, s_process s, s_vars s)) (t_sections t)) ts =
  [[(L "rad_run", L "mod", L "UNKNOWN",
     [[(L "local_name", PText (L "t")); (L "units", PText (L "K")); (L "type", PText (L "real"));
       (L "dimensions", PList [L "ccpp_constant_one:ncol"; L "1:nz"])];
      [(L "local_name", PText (L "q(:, 2)")); (L "dimensions", PList [L "ccpp_constant_one:ncol"]); (L "type", PText (L "real"))]]);
    (L "rad_init", L "mod", L "radiation", [[(L "local_name", PText (L "n")); (L "type", PText (L "integer"))]])]].
Proof. eexists. split; [vm_compute; reflexivity|]. vm_compute. auto. Qed.
(* the same file without the "type" line of the second section is refused *)
Example C73_refused_ok : exists m, parse_metadata_file demo_checker false (L "mod") [] (firstn 17 demo_file ++ skipn 18 demo_file) = Raise m.
Proof. eexists. vm_compute. reflexivity. Qed.

(* Finding: when the first property of a variable has an unknown name, the error that is
   raised is not the one of the parser but Python's UnboundLocalError. *)
Theorem C73_finding_unbound : forall C skip ddts name l r k v ps,
  ~ section_line l -> ~ table_line l -> ~ variable_line l -> ~ blank_line l -> pieces (strip l) ((k, v) :: ps) ->
  lower (strip k) <> L "type" -> c_prop C (lower (strip k)) = None ->
  parse_variable C skip ddts name (l :: r) = Raise "UnboundLocalError".
Proof.
  intros C skip ddts name l r k v ps NS NT NV NB P NK N. unfold parse_variable. cbn [var_lines].
  rewrite (proj2 (header_start_false l) NS), (proj2 (table_start_false l) NT). cbn [orb].
  destruct (variable_start_cases l) as [[-> _]|(n & _ & V & _)]; [|contradiction]. cbn [bind].
  assert (parse_config_line l = Ok ((k, v) :: ps)) as -> by (apply config_spec; right; auto). cbn [bind var_items].
  unfold var_item. cbn [fst snd]. destruct (intrinsic_text (strip v)) as (o & -> & _). cbn [bind].
  destruct (str_eqb (lower (strip k)) (L "type")) eqn:Q; [apply str_eqb_eq in Q; contradiction|]. cbn [andb]. rewrite N. reflexivity.
Qed.
Print Assumptions C73_finding_unbound.
Example C73_finding_unbound_ok :
  parse_metadata_file demo_checker false (L "mod") [] (map L
   ["[ccpp-table-properties]"; "  name = rad"; "  type = scheme"; "[ccpp-arg-table]"; "  name = rad_run"; "  type = scheme"; "[ t ]"; "  unit = K"]%string)
  = Raise "UnboundLocalError".
Proof. vm_compute. reflexivity. Qed.

(* ---- C74 ---- *)
Lemma marker_opens w l : marker w l -> opens l.
Proof.
  intros (w1 & w2 & t & w3 & r & -> & H1 & _). unfold opens, strip. cbn [L list_ascii_of_string app].
  assert (lstrip (w1 ++ "["%char :: w2 ++ t ++ w3 ++ L "]" ++ r) = "["%char :: w2 ++ t ++ w3 ++ L "]" ++ r) as E.
  { clear -H1. unfold lstrip. induction w1 as [|x w1 IH]; [reflexivity|]. cbn. rewrite (H1 x) by now left. apply IH. intros c C. apply H1. now right. }
  cbn [L list_ascii_of_string app] in E. rewrite E. exists (rstrip (w2 ++ t ++ w3 ++ L "]" ++ r)).
  unfold rstrip. cbn [rev]. clear. set (s := w2 ++ t ++ w3 ++ "]"%char :: r). change (w2 ++ t ++ w3 ++ L "]" ++ r) with s. clearbody s. clear -s.
  unfold lstrip. induction (rev s) as [|x u IH]; [reflexivity|]. cbn [app dropwhile]. destruct (is_space x); [exact IH|]. rewrite app_comm_cons, rev_app_distr. reflexivity.
Qed.
Lemma opens_case l : (strip l = [] /\ ~ opens l) \/ (exists c t, strip l = c :: t /\ ((c = "["%char /\ opens l) \/ (c <> "["%char /\ ~ opens l))).
Proof.
  unfold opens. destruct (strip l) as [|c t]; [left; split; auto; intros (r & H); discriminate|]. right. exists c, t. split; auto.
  destruct (Ascii.ascii_dec c "["); [left; subst; split; auto; exists t; reflexivity|right; split; auto]. intros (r & H). injection H as H _. contradiction.
Qed.
Lemma name_values_spec items : name_values items = values_of (L "name") (map norm items).
Proof.
  unfold values_of. induction items as [|[k v] r IH]; [reflexivity|]. cbn [name_values map norm fst snd List.filter]. rewrite IH.
  unfold norm at 2. cbn [fst snd]. destruct (str_eq_dec (lower (strip k)) (L "name")) as [->|N]; [rewrite str_eqb_refl; reflexivity|].
  destruct (str_eqb (lower (strip k)) (L "name")) eqn:Q; [apply str_eqb_eq in Q; contradiction|reflexivity].
Qed.
Lemma values_app k a b : values_of k (a ++ b) = values_of k a ++ values_of k b.
Proof. unfold values_of. now rewrite filter_app, map_app. Qed.
Lemma find_start_spec ls : forall names names' rest,
  find_start names ls = Ok (names', rest) <->
  exists hd kvs, ls = hd ++ rest /\ (forall l, In l hd -> ~ opens l) /\ match rest with [] => False | l :: _ => opens l end /\
    settings (map strip hd) kvs /\ names' = names ++ values_of (L "name") kvs.
Proof.
  induction ls as [|l r IH]; intros names names' rest; cbn [find_start].
  - split; [discriminate|]. intros (hd & kvs & E & _ & O & _). symmetry in E. apply app_eq_nil in E as [_ ->]. destruct O.
  - assert (STOP : opens l -> Ok (names, l :: r) = Ok (names', rest) <->
      exists hd kvs, l :: r = hd ++ rest /\ (forall l, In l hd -> ~ opens l) /\ match rest with [] => False | l :: _ => opens l end /\
      settings (map strip hd) kvs /\ names' = names ++ values_of (L "name") kvs).
    { intros O. split.
      - intros [= <- <-]. exists [], []. split; auto. split; [intros ? []|]. split; auto. split; [now apply settings_nil|]. now rewrite app_nil_r.
      - intros (hd & kvs & E & H & _ & S & ->). destruct hd as [|x hd].
        + cbn in E. subst rest. apply settings_nil in S. subst kvs. cbn. now rewrite app_nil_r.
        + injection E as <- _. exfalso. apply (H l); auto. now left. }
    assert (STEP : ~ opens l -> (exists items, parse_config_line (strip l) = Ok items /\ find_start (names ++ name_values items) r = Ok (names', rest)) <->
      exists hd kvs, l :: r = hd ++ rest /\ (forall l, In l hd -> ~ opens l) /\ match rest with [] => False | l :: _ => opens l end /\
      settings (map strip hd) kvs /\ names' = names ++ values_of (L "name") kvs).
    { intros O. split.
      - intros (items & P & X). apply IH in X as (hd & kvs & -> & H & R & S & ->). exists (l :: hd), (map norm items ++ kvs).
        split; auto. split; [intros x [<-|I]; auto|]. split; auto. split; [cbn [map]; apply settings_cons; eauto|].
        now rewrite values_app, name_values_spec, <- app_assoc.
      - intros (hd & kvs & E & H & R & S & ->). destruct hd as [|x hd]; [cbn in E; subst rest; contradiction|]. injection E as <- E.
        cbn [map] in S. apply settings_cons in S as (items & kvs' & P & S & ->). exists items. split; auto. apply IH. exists hd, kvs'. split; auto.
        split; [intros y Y; apply H; now right|]. split; auto. split; auto. now rewrite values_app, name_values_spec, <- app_assoc. }
    destruct (opens_case l) as [[E N]|(c & t & E & [[-> O]|[N1 N]])]; rewrite E in *.
    + rewrite <- (STEP N). split; [intros X; exists []; split; [reflexivity|]; cbn [name_values]; now rewrite app_nil_r|]. intros (items & [= <-] & X). cbn [name_values] in X. now rewrite app_nil_r in X.
    + exact (STOP O).
    + destruct (Ascii.eqb c "[") eqn:Q; [apply Ascii.eqb_eq in Q; contradiction|]. rewrite <- (STEP N), bind_ok. reflexivity.
Qed.
Definition no_last_open (bs : list (str * list str)) : Prop := exists a h b, bs = a ++ [(h, b)] /\ forall l, In l b -> ~ opens l.
Lemma table_opens l : table_line l -> opens l. Proof. apply marker_opens. Qed.
Lemma scheme_names_spec : forall fuel names ls names', length ls < fuel ->
  scheme_names fuel names ls = Ok names' <->
  exists pre bs each, blocks table_line ls pre bs /\ Forall2 (fun hb ns => header_names (snd hb) ns) bs each /\
    (forall a h b, bs = a ++ [(h, b)] -> exists l, In l b /\ opens l) /\ names' = names ++ List.concat each.
Proof.
  induction fuel as [|f IH]; intros names ls names' LF; [lia|]. cbn [scheme_names]. destruct ls as [|l r].
  - split.
    + intros [= <-]. exists [], [], []. split; [split; [reflexivity|split; [intros ? []|intros ? ? []]]|]. split; [constructor|]. split; [intros a ? ? E; destruct a; discriminate|]. now rewrite app_nil_r.
    + intros (pre & bs & each & (E & _) & F & _ & ->). symmetry in E. apply app_eq_nil in E as [_ E]. destruct bs; [|discriminate]. inversion F. cbn. now rewrite app_nil_r.
  - cbn [length] in LF. destruct (table_start l) eqn:TS.
    + apply table_start_spec in TS. rewrite bind_ok. split.
      * intros ([names1 rest] & FS & X). apply find_start_spec in FS as (hd & kvs & -> & HD & R & S & ->). rewrite app_length in LF.
        apply IH in X as (pre & bs & each & (-> & P & B) & F & LA & ->); [|lia]. fold (flat bs) in *.
        exists [], ((l, hd ++ pre) :: bs), (values_of (L "name") kvs :: each). split; [|split; [|split]].
        -- split; [cbn [app map List.concat fst snd]; now rewrite <- app_assoc|]. split; [intros ? []|].
           intros h b [[= <- <-]|I]; [|now apply B]. split; auto. intros x I. apply in_app_iff in I as [I|I]; [|now apply P]. intros T. apply (HD x I). now apply table_opens.
        -- constructor; auto. cbn [snd]. exists hd, pre, kvs. split; auto. split; auto. split; [destruct pre; auto|auto].
        -- intros a h b E. destruct a as [|x a].
           ++ injection E as _ <- ->. destruct pre as [|y pre]; [destruct R|]. exists y. split; [apply in_app_iff; right; now left|exact R].
           ++ injection E as _ ->. eapply LA. reflexivity.
        -- cbn [List.concat]. now rewrite <- app_assoc.
      * intros (pre & bs & each & (E & P & B) & F & LA & ->). fold (flat bs) in E. destruct pre as [|x pre]; [|injection E as <- _; exfalso; apply (P l); [now left|auto]].
        destruct bs as [|[h b] bs]; [discriminate|]. cbn [app] in E. rewrite flat_cons in E. injection E as <- ->.
        inversion F as [|? ns ? each' (hd & rest & kvs & E & HD & R & S & EN) F']; subst. cbn [snd] in E. subst b.
        exists (names ++ values_of (L "name") kvs, rest ++ flat bs). split.
        -- apply find_start_spec. exists hd, kvs. split; [now rewrite <- app_assoc|]. split; auto. split; [|auto].
           destruct rest as [|y rest]; [|exact R]. destruct bs as [|[h' b'] bs].
           ++ destruct (LA [] l (hd ++ []) eq_refl) as (y & I & O). rewrite app_nil_r in I. exact (HD y I O).
           ++ cbn. apply table_opens. apply (B h' b'). right. now left.
        -- rewrite !app_length in LF. apply IH; [rewrite app_length; lia|]. exists rest, bs, each'. split; [|split; [auto|split]].
           ++ split; [reflexivity|]. split; [|intros h' b' I; apply B; now right]. intros y I. apply (B l (hd ++ rest)); [now left|apply in_app_iff; auto].
           ++ intros a h' b' ->. apply (LA ((l, hd ++ rest) :: a) h' b'). reflexivity.
           ++ cbn [List.concat]. now rewrite <- app_assoc.
    + apply table_start_false in TS. rewrite IH by lia. split.
      * intros (pre & bs & each & (-> & P & B) & R). exists (l :: pre), bs, each. split; auto. split; [reflexivity|]. split; auto. intros x [<-|I]; auto.
      * intros (pre & bs & each & (E & P & B) & R). destruct pre as [|x pre].
        -- destruct bs as [|[h b] bs]; [discriminate|]. fold (flat ((h, b) :: bs)) in E. rewrite flat_cons in E. injection E as <- _. destruct (B l b); [now left|contradiction].
        -- injection E as <- E. exists pre, bs, each. split; auto. split; auto. split; auto. intros y Y. apply P. now right.
Qed.
(* The names found are the values of the "name" lines in the headers of the tables; every
   table but the last one may do without a section. *)
Theorem C74_names : forall ls names,
  find_scheme_names ls = Ok names <->
  exists pre bs each, blocks table_line ls pre bs /\ Forall2 (fun hb ns => header_names (snd hb) ns) bs each /\
    (forall a h b, bs = a ++ [(h, b)] -> exists l, In l b /\ opens l) /\ names = List.concat each.
Proof. intros ls names. unfold find_scheme_names. rewrite scheme_names_spec by lia. reflexivity. Qed.
Print Assumptions C74_names.
Example C74_names_ok : find_scheme_names (map (fun l => l ++ ["010"%char]) demo_file) = Ok [L "rad"].
Proof. vm_compute. reflexivity. Qed.

(* For a file that the metadata parser accepts, whose last table has a section, they are
   the names of its tables in order (with any names a header sets and then replaces). *)
Definition nl : str := ["010"%char].
Lemma rstrip_tail s b : all_space b -> rstrip (s ++ b) = rstrip s.
Proof.
  intros B. unfold rstrip. rewrite rev_app_distr. f_equal. assert (B' : forall c, In c (rev b) -> is_space c = true) by (intros c H; apply B; now apply in_rev).
  induction (rev b) as [|x u IH]; [reflexivity|]. cbn [app dropwhile]. rewrite (B' x) by now left. apply IH. intros c C. apply B'. now right.
Qed.
Lemma strip_tail s b : all_space b -> strip (s ++ b) = strip s.
Proof.
  intros B. unfold strip. assert (lstrip (s ++ b) = lstrip s ++ b \/ (lstrip s = [] /\ lstrip (s ++ b) = [])) as [-> | [-> ->]]; [| |reflexivity].
  - unfold lstrip. induction s as [|x s IH].
    + right. split; [reflexivity|]. cbn. induction b as [|y b IH]; [reflexivity|]. cbn. rewrite (B y) by now left. apply IH. intros c C. apply B. now right.
    + cbn. destruct (is_space x); [exact IH|now left].
  - now apply rstrip_tail.
Qed.
Lemma strip_split l : exists a b, l = a ++ strip l ++ b /\ all_space a /\ all_space b.
Proof.
  assert (R : forall s, exists b, s = rstrip s ++ b /\ all_space b).
  { intros s. unfold rstrip. assert (exists u, rev s = u ++ dropwhile is_space (rev s) /\ all_space u) as (u & E & U).
    { induction (rev s) as [|x r (u & E & U)]; [exists []; split; auto; intros ? []|]. cbn. destruct (is_space x) eqn:X.
      - exists (x :: u). cbn. rewrite <- E. split; auto. intros c [<-|C]; auto.
      - exists []. split; auto. intros ? []. }
    exists (rev u). split; [|intros c C; apply U; now apply in_rev]. apply (f_equal (@rev ascii)) in E. rewrite rev_involutive, rev_app_distr in E. exact E. }
  assert (Q : exists a, l = a ++ lstrip l /\ all_space a).
  { unfold lstrip. induction l as [|x r (u & E & U)]; [exists []; split; auto; intros ? []|]. cbn. destruct (is_space x) eqn:X.
    - exists (x :: u). cbn. rewrite <- E. split; auto. intros c [<-|C]; auto.
    - exists []. split; auto. intros ? []. }
  destruct Q as (a & E & A). destruct (R (lstrip l)) as (b & E' & B). exists a, b. split; auto. unfold strip. rewrite <- E'. exact E.
Qed.
Lemma strip_nl l : strip (l ++ nl) = strip l.
Proof. apply strip_tail. intros c [<-|[]]. reflexivity. Qed.
Lemma opens_nl l : opens (l ++ nl) <-> opens l.
Proof. unfold opens. now rewrite strip_nl. Qed.
Lemma table_nl l : table_line (l ++ nl) <-> table_line l.
Proof.
  unfold table_line, marker. split.
  - intros (w1 & w2 & t & w3 & r & E & H). destruct (exists_last (l := r)) as (r' & x & ->).
    { intros ->. cbn [L list_ascii_of_string app] in E. rewrite !app_assoc in E. rewrite app_comm_cons, !app_assoc in E. apply app_inj_tail in E as [_ E]. discriminate. }
    exists w1, w2, t, w3, r'. split; auto. cbn [L list_ascii_of_string app] in *. repeat rewrite ?app_assoc, ?app_comm_cons in E. apply app_inj_tail in E as [-> _].
    repeat (rewrite <- ?app_assoc; cbn [app]). reflexivity.
  - intros (w1 & w2 & t & w3 & r & -> & H). exists w1, w2, t, w3, (r ++ nl). split; auto. repeat rewrite <- app_assoc. reflexivity.
Qed.
Lemma map_strip_nl ls : map strip (map (fun l => l ++ nl) ls) = map strip ls.
Proof. rewrite map_map. apply map_ext. apply strip_nl. Qed.
Lemma config_strip l : ~ opens l \/ True -> strip l <> [] -> parse_config_line (strip l) = parse_config_line l.
Proof.
  intros _ N. unfold parse_config_line. rewrite strip_idem.
  assert (blank_metadata_line (strip l) = blank_metadata_line l) as ->; [|reflexivity].
  apply eq_true_iff_eq. rewrite !blank_spec. unfold blank_line. split; intros H.
  - right. destruct H as [H|(w & c & r & E & W & H)]; [contradiction|]. destruct (strip_split l) as (a & b & EL & A & B). rewrite EL, E. exists (a ++ w), c, (r ++ b).
    split; [now rewrite <- !app_assoc|]. split; auto. intros x X. apply in_app_iff in X as [X|X]; auto.
  - destruct H as [->|(w & c & r & E & W & H)]; [now left|]. right. exists [], c, (rstrip r). split; [|split; [intros ? []|auto]].
    rewrite E. unfold strip. assert (lstrip (w ++ c :: r) = c :: r) as ->.
    { clear -W H. unfold lstrip. induction w as [|x w IH]; cbn; [destruct H; subst; reflexivity|]. rewrite (W x) by now left. apply IH. intros d D. apply W. now right. }
    unfold rstrip. cbn [rev app]. clear -H. unfold lstrip. induction (rev r) as [|x u IH]; [cbn; destruct H; subst; reflexivity|]. cbn [app dropwhile]. destruct (is_space x); [exact IH|]. now rewrite app_comm_cons, rev_app_distr.
Qed.

Lemma config_stripped l items : parse_config_line l = Ok items -> parse_config_line (strip l) = Ok items.
Proof.
  intros P. destruct (strip l) as [|c t] eqn:E; [|rewrite <- E, config_strip; auto; congruence].
  unfold parse_config_line in *. destruct (blank_metadata_line l) eqn:B; [exact P|]. rewrite E in P. cbn in P. discriminate.
Qed.
Lemma settings_strip ls kvs : settings ls kvs -> settings (map strip ls) kvs.
Proof.
  revert kvs. induction ls as [|l ls IH]; intros kvs S; [exact S|]. apply settings_cons in S as (items & kvs' & P & S & ->). cbn [map]. apply settings_cons. exists items, kvs'. split; [now apply config_stripped|auto].
Qed.
(* a line that opens sets a key that starts with a bracket *)
Lemma opens_key l items : opens l -> parse_config_line l = Ok items -> exists v k r, In (k, v) (map norm items) /\ k = L "[" ++ r.
Proof.
  intros (r & E) P. apply config_spec in P as [[[->|(w & c & q & -> & W & H)] _]|[NB (NE & EQ & K)]].
  - discriminate.
  - exfalso. assert (strip (w ++ c :: q) = c :: rstrip q) as X; [|rewrite X in E; injection E as E _; subst; destruct H; discriminate].
    unfold strip. assert (lstrip (w ++ c :: q) = c :: q) as ->.
    { clear -W H. unfold lstrip. induction w as [|x w IH]; cbn; [destruct H; subst; reflexivity|]. rewrite (W x) by now left. apply IH. intros d D. apply W. now right. }
    unfold rstrip. cbn [rev app]. clear -H. induction (rev q) as [|x u IH]; [cbn; destruct H; subst; reflexivity|]. cbn [app dropwhile]. destruct (is_space x); [exact IH|]. now rewrite app_comm_cons, rev_app_distr.
  - destruct items as [|[k v] items]; [congruence|]. exists (strip v), (lower (strip k)).
    assert (exists k', k = L "[" ++ k') as (k' & ->).
    { rewrite E in EQ. destruct k as [|c k].
      - exfalso. destruct items; cbn in EQ; discriminate.
      - exists k. destruct items; cbn in EQ; injection EQ as -> _; reflexivity. }
    assert (exists q, strip (L "[" ++ k') = L "[" ++ q) as (q & EQ2).
    { unfold strip. assert (lstrip (L "[" ++ k') = L "[" ++ k') as -> by reflexivity. exists (rstrip k'). unfold rstrip. cbn [L list_ascii_of_string rev app].
      clear. induction (rev k') as [|x u IH]; [reflexivity|]. cbn [app dropwhile]. destruct (is_space x); [exact IH|]. now rewrite app_comm_cons, rev_app_distr. }
    exists (lower q). split; [left; reflexivity|rewrite EQ2; reflexivity].
Qed.
Definition last_name (t : table) (ns : list str) : Prop := match t_name t with Some n => exists a, ns = a ++ [n] | None => ns = [] end.
Lemma table_header C skip dmod K body t : table_means C skip dmod K body t ->
  exists ns, header_names (map (fun l => l ++ nl) body) ns /\ last_name t ns /\ (t_sections t <> [] -> exists l, In l body /\ opens l).
Proof.
  intros (pre & bs & kvs & (-> & P & B) & S & KEYS & _ & LN & _ & _ & _ & F & _). fold (flat bs). exists (values_of (L "name") kvs). split; [|split].
  - exists (map (fun l => l ++ nl) pre), (map (fun l => l ++ nl) (flat bs)), kvs. split; [apply map_app|]. split; [|split; [|split]].
    + intros l I. apply in_map_iff in I as (x & <- & I). rewrite opens_nl. intros O.
      assert (exists items, parse_config_line x = Ok items /\ forall kv, In kv (map norm items) -> In kv kvs) as (items & PC & SUB).
      { clear -S I. revert kvs S. induction pre as [|y pre IH]; intros kvs S; [destruct I|]. apply settings_cons in S as (items & kvs' & PC & S & ->). destruct I as [->|I].
        - exists items. split; auto. intros kv H. apply in_app_iff. now left.
        - destruct (IH I kvs' S) as (it & A & Q). exists it. split; auto. intros kv H. apply in_app_iff. right. auto. }
      destruct (opens_key x items O PC) as (v & k & r & J & ->). apply SUB in J. apply KEYS in J. destruct J as [J|[J|[J|[J|[]]]]]; discriminate.
    + destruct bs as [|[h b] bs]; [exact I|]. cbn. apply opens_nl. apply (marker_opens (L "ccpp-arg-table")). apply (B h b). now left.
    + rewrite map_strip_nl. now apply settings_strip.
    + reflexivity.
  - unfold last_name. unfold last_set in LN. destruct (t_name t) as [n|].
    + destruct LN as (a & b & -> & N). exists (values_of (L "name") a). rewrite values_app. f_equal. unfold values_of. cbn [List.filter fst]. destruct (str_eq_dec (L "name") (L "name")) as [_|X]; [|congruence].
      cbn [map snd]. f_equal. clear -N. induction b as [|[k v] b IH]; [reflexivity|]. cbn [List.filter fst]. destruct (str_eq_dec k (L "name")) as [->|_]; [exfalso; apply (N v); now left|].
      apply IH. intros v' H. apply (N v'). now right.
    + clear -LN. unfold values_of. induction kvs as [|[k v] b IH]; [reflexivity|]. cbn [List.filter fst]. destruct (str_eq_dec k (L "name")) as [->|_]; [exfalso; apply (LN v); now left|].
      apply IH. intros v' H. apply (LN v'). now right.
  - intros N. destruct bs as [|[h b] bs]; [inversion F; congruence|]. exists h. split; [apply in_app_iff; right; apply in_flat; exists h, b; split; [now left|auto]|].
    apply (marker_opens (L "ccpp-arg-table")). apply (B h b). now left.
Qed.
Theorem C74_agrees : forall C skip dmod ddts ls ts,
  parse_metadata_file C skip dmod ddts ls = Ok ts -> (forall a t, ts = a ++ [t] -> t_sections t <> []) ->
  exists each, find_scheme_names (map (fun l => l ++ ["010"%char]) ls) = Ok (List.concat each) /\
    Forall2 (fun t ns => match t_name t with Some n => exists a, ns = a ++ [n] | None => ns = [] end) ts each.
Proof.
  intros C skip dmod ddts ls ts P LAST. apply C73_parse in P as (pre & bs & (-> & NP & B) & _ & M & _). fold (flat bs) nl.
  set (g := fun hb : str * list str => (fst hb ++ nl, map (fun l => l ++ nl) (snd hb))).
  assert (X : exists each, Forall2 (fun hb ns => header_names (snd hb) ns) (map g bs) each /\ Forall2 last_name ts each /\
    (forall a h b, map g bs = a ++ [(h, b)] -> exists l, In l b /\ opens l)).
  { clear NP B. revert M LAST. generalize (fun v => In v ddts). intros K M. induction M as [K|K h body bs t ts TM M IH]; intros LAST.
    - exists []. split; [constructor|]. split; [constructor|]. intros a ? ? E. destruct a; discriminate.
    - destruct IH as (each & F1 & F2 & LA). { intros a t' ->. apply (LAST (t :: a)). reflexivity. }
      destruct (table_header _ _ _ _ _ _ TM) as (ns & H & N & O). exists (ns :: each). split; [constructor; auto|]. split; [constructor; auto|].
      intros a h' b' E. destruct a as [|x a].
      + cbn [map app] in E. injection E as _ <- E. destruct bs; [|discriminate]. inversion M; subst. destruct (O (LAST [] t eq_refl)) as (l & I & OL).
        exists (l ++ nl). split; [apply in_map_iff; eauto|now apply opens_nl].
      + injection E as _ E. eapply LA. exact E. }
  destruct X as (each & F1 & F2 & LA). exists each. split; [|exact F2]. apply C74_names. exists (map (fun l => l ++ nl) pre), (map g bs), each. split; [|auto].
  split; [|split].
  - rewrite map_app. f_equal. unfold flat, g. rewrite concat_map, !map_map. reflexivity.
  - intros l I. apply in_map_iff in I as (x & <- & I). rewrite table_nl. now apply NP.
  - intros h b I. apply in_map_iff in I as ([h0 b0] & [= <- <-] & I). destruct (B h0 b0 I) as [B1 B2]. split; [now apply table_nl|].
    intros l J. apply in_map_iff in J as (x & <- & J). rewrite table_nl. now apply B2.
Qed.
Print Assumptions C74_agrees.
Example C74_agrees_ok : exists ts, parse_metadata_file demo_checker false (L "mod") [] demo_file = Ok ts /\ forall a t, ts = a ++ [t] -> t_sections t <> [].
Proof. eexists. split; [vm_compute; reflexivity|]. intros [|x [|y a]] t E; [|discriminate|discriminate]. injection E as <-. discriminate. Qed.

(* Finding: when no line after the header of the last table opens with a bracket, the
   search runs off the end of the file, although the parser accepts such a table. *)
Lemma find_start_off ls : forall names kvs, (forall l, In l ls -> ~ opens l) -> settings (map strip ls) kvs -> find_start names ls = Raise "IndexError".
Proof.
  induction ls as [|l r IH]; intros names kvs O S; [reflexivity|]. cbn [find_start]. cbn [map] in S. apply settings_cons in S as (items & kvs' & P & S & ->).
  destruct (opens_case l) as [[E N]|(c & t & E & [[-> Q]|[N1 N]])]; rewrite E in *.
  - apply (IH names kvs'); auto. intros x X. apply O. now right.
  - exfalso. apply (O l); auto. now left.
  - destruct (Ascii.eqb c "[") eqn:Q; [apply Ascii.eqb_eq in Q; contradiction|]. rewrite P. cbn [bind]. apply (IH _ kvs'); auto. intros x X. apply O. now right.
Qed.
Lemma scheme_names_off : forall fuel names ls pre bs each a h b, length ls < fuel -> blocks table_line ls pre bs ->
  Forall2 (fun hb ns => header_names (snd hb) ns) bs each -> bs = a ++ [(h, b)] -> (forall l, In l b -> ~ opens l) ->
  scheme_names fuel names ls = Raise "IndexError".
Proof.
  induction fuel as [|f IH]; intros names ls pre bs each a h b LF (-> & P & B) F E O; [lia|]. fold (flat bs) in *. destruct pre as [|l pre].
  - destruct bs as [|[h1 b1] bs]; [destruct a; discriminate|]. cbn [app] in *. rewrite flat_cons in *. cbn [scheme_names length] in *.
    destruct (B h1 b1) as [TL NT]; [now left|]. rewrite (proj2 (table_start_spec h1) TL).
    inversion F as [|? ns ? each' (hd & rest & kvs & E1 & HD & R & S & EN) F']; subst ns each. cbn [snd] in E1. subst b1. rewrite !app_length in LF.
    assert (STEP : match rest ++ flat bs with [] => False | l :: _ => opens l end -> scheme_names f (names ++ values_of (L "name") kvs) (rest ++ flat bs) = Raise "IndexError" ->
      (s <- find_start names ((hd ++ rest) ++ flat bs) ;; let '(names', rest0) := s in scheme_names f names' rest0) = Raise "IndexError").
    { intros Q X. assert (find_start names ((hd ++ rest) ++ flat bs) = Ok (names ++ values_of (L "name") kvs, rest ++ flat bs)) as ->; [|exact X].
      apply find_start_spec. exists hd, kvs. split; [now rewrite <- app_assoc|]. auto. }
    destruct a as [|xx a].
    + injection E as <- <- ->. destruct rest as [|y rest].
      * cbn [flat map List.concat]. rewrite !app_nil_r in *. rewrite (find_start_off hd names kvs HD S). reflexivity.
      * exfalso. apply (O y); [apply in_app_iff; right; now left|exact R].
    + injection E as <- E. apply STEP.
      * destruct rest as [|y rest]; [|exact R]. destruct bs as [|[h2 b2] bs]; [destruct a; discriminate|]. cbn. apply table_opens. apply (B h2 b2). right. now left.
      * eapply (IH _ _ rest bs each' a h b); auto; [rewrite app_length; lia|]. split; [reflexivity|]. split; [|intros h' b' I; apply B; now right]. intros y I. apply NT. apply in_app_iff. now right.
  - cbn [app scheme_names length] in *. rewrite (proj2 (table_start_false l)) by (apply P; now left). eapply (IH _ _ pre bs each a h b); eauto; [lia|].
    split; [reflexivity|]. split; auto. intros x X. apply P. now right.
Qed.
Theorem C74_finding_no_section : forall ls pre a h b each, blocks table_line ls pre (a ++ [(h, b)]) ->
  Forall2 (fun hb ns => header_names (snd hb) ns) (a ++ [(h, b)]) each -> (forall l, In l b -> ~ opens l) ->
  find_scheme_names ls = Raise "IndexError".
Proof. intros ls pre a h b each BL F O. eapply scheme_names_off; eauto. Qed.
Print Assumptions C74_finding_no_section.
Example C74_finding_ok :
  (exists ts, parse_metadata_file demo_checker false (L "mod") [] (map L ["[ccpp-table-properties]"; "  name = rad"; "  type = scheme"]%string) = Ok ts) /\
  find_scheme_names (map L ["[ccpp-table-properties]"; "  name = rad"; "  type = scheme"]%string) = Raise "IndexError".
Proof. split; [eexists|]; vm_compute; reflexivity. Qed.
