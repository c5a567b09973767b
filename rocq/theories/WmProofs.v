(* WmProofs.v: the prototype metadata of a Fortran file. *)
From Coq Require Import List Ascii String Bool Lia.
From Verif Require Import PyStr PyNum Regex PhaseModel PhaseSpec CheckModel CheckSpec CheckProofs MetaModel MetaSpec MetaProofs MetaFile WmModel WmSpec.
From Verif Require FWProofs.
Import ListNotations.
Open Scope nat_scope. Open Scope list_scope.

(* ---- names of dimensions ---- *)
Definition std_ok (ns : list (str * str)) : Prop := forall b s, In (b, s) ns -> fortran_name s.
Lemma known_latest ns b s : known ns b = Some s -> latest ns b s.
Proof.
  unfold known. induction ns as [|[x t] ns IH]; [discriminate|]. cbn [List.find fst]. destruct (str_eqb x b) eqn:E.
  - intros H. apply str_eqb_eq in E. cbn in H. injection H as ->. subst x. exists [], ns. split; [reflexivity|]. intros u [].
  - intros H. destruct (IH H) as (a & c & -> & N). exists ((x, t) :: a), c. split; [reflexivity|]. intros u [X|X]; [|exact (N u X)].
    injection X as -> ->. now rewrite str_eqb_refl in E.
Qed.
Lemma known_none ns b : known ns b = None -> forall s, ~ In (b, s) ns.
Proof.
  unfold known. intros H s I. destruct (List.find (fun x => str_eqb (fst x) b) ns) eqn:F; [discriminate|]. apply (find_none _ _ F) in I. cbn in I. now rewrite str_eqb_refl in I.
Qed.
Lemma placeholder_name k : fortran_name (placeholder k).
Proof.
  unfold placeholder. exists "e"%char, (L "nter_standard_name_" ++ str_of_nat k). split; [reflexivity|]. split; [reflexivity|].
  assert (D := str_of_nat_digits k). rewrite forallb_forall in D. intros c I. apply in_app_or in I as [I|I].
  - cbn in I. repeat (destruct I as [<-|I]; [reflexivity|]). destruct I.
  - apply D in I. revert I. clear. destruct c as [[] [] [] [] [] [] [] []]; cbn; intros H; try discriminate; reflexivity.
Qed.
Lemma bounds_ok ns (SO : std_ok ns) bs : forall n ss m, bounds ns n bs = (ss, m) -> bounds_read ns n bs ss m /\ Forall fortran_name ss /\ length ss = length bs.
Proof.
  induction bs as [|b bs IH]; intros n ss m H; cbn [bounds] in H.
  - injection H as <- <-. split; [constructor|]. split; [constructor|reflexivity].
  - unfold bound in H. destruct (if nil_str b then None else known ns b) as [s|] eqn:K.
    + destruct (bounds ns n bs) as [l k] eqn:B. injection H as <- <-. destruct (IH _ _ _ B) as (R & F & LN). destruct b as [|c b]; [discriminate|]. cbn in K. apply known_latest in K.
      split; [apply BR_known; [discriminate|exact K|exact R]|]. split; [|cbn; now rewrite LN]. constructor; [|exact F]. destruct K as (a & z & E & _). apply (SO (c :: b)). rewrite E. apply in_or_app. right. now left.
    + destruct (bounds ns (S n) bs) as [l k] eqn:B. injection H as <- <-. destruct (IH _ _ _ B) as (R & F & LN).
      assert (E : unique n = placeholder (n + 1)) by (unfold unique, placeholder; now rewrite Nat.add_1_r). rewrite E.
      split; [apply BR_new; [|now rewrite Nat.add_1_r]|split; [constructor; [apply placeholder_name|exact F]|cbn; now rewrite LN]].
      destruct b as [|c b]; [now left|]. right. apply known_none. exact K.
Qed.
Definition good_dims (rs : list (list str)) : Prop := forall d, In d rs -> d <> [] /\ Forall fortran_name d.
Lemma dims_ok ns (SO : std_ok ns) ds : forall n out m, dims ns n ds = (out, m) -> exists rs, dims_read ns n ds rs m /\ out = map (join (L ":")) rs /\ good_dims rs.
Proof.
  induction ds as [|d ds IH]; intros n out m H; cbn [dims] in H.
  - injection H as <- <-. exists []. split; [constructor|]. split; [reflexivity|intros d []].
  - destruct (bounds ns n (split_on ":" d)) as [s k] eqn:B. destruct (dims ns k ds) as [l j] eqn:D. injection H as <- <-.
    destruct (bounds_ok ns SO _ _ _ _ B) as (R & F & LN). destruct (IH _ _ _ D) as (rs & R2 & -> & G). exists (s :: rs). split.
    + apply DR_cons with (bs := split_on ":" d) (k := k); auto; [symmetry; apply join_split|apply split_on_nonempty|]. intros b I. exact (split_on_no_sep _ _ _ I).
    + split; [reflexivity|]. intros x [<-|I]; [|now apply G]. split; [|exact F]. intros ->. destruct (split_on ":" d) eqn:SP; [now apply split_on_nonempty in SP|discriminate].
Qed.
Lemma dims_total ns (SO : std_ok ns) n ds : exists rs m, dims ns n ds = (map (join (L ":")) rs, m) /\ dims_read ns n ds rs m /\ good_dims rs.
Proof. destruct (dims ns n ds) as [out m] eqn:E. destruct (dims_ok ns SO _ _ _ _ E) as (rs & R & -> & G). eauto. Qed.

(* ---- lines ---- *)
Lemma word_ends s : word_text s -> (exists c t, s = c :: t /\ is_space c = false) /\ exists t c, s = t ++ [c] /\ is_space c = false.
Proof. intros (N & S & _). destruct (FWProofs.strip_parts s S) as [E|E]; [contradiction|exact E]. Qed.
Lemma name_word s : fortran_name s -> word_text s.
Proof.
  intros N. destruct (name_ends s N) as (NE & H & T). split; [exact NE|]. split.
  - destruct s as [|c r]; [congruence|]. destruct (@exists_last _ (c :: r)) as (u & d & E); [discriminate|]. rewrite E at 2. rewrite <- E. apply (strip_clean c r d u); [exact E|now apply H|now apply (T u)].
  - intros I. destruct N as (c & r & -> & A & B). destruct I as [->|I]; [discriminate|]. apply B in I. discriminate.
Qed.
(* a line that starts with two blanks and a letter *)
Definition indented (l : str) : Prop := exists c r, l = L "  " ++ c :: r /\ is_space c = false /\ c <> "["%char /\ c <> "#"%char /\ c <> ";"%char.
Lemma sp2 : all_space (L "  ").
Proof. intros c I. cbn in I. repeat (destruct I as [<-|I]; [reflexivity|]). destruct I. Qed.
Lemma indented_not_blank l : indented l -> ~ blank_line l.
Proof.
  intros (c & r & -> & S & _ & H1 & H2) [B|(w & d & r' & E & W & D)]; [discriminate|].
  destruct (first_nonspace (L "  ") c r w d r' sp2 W S) as (_ & <- & _); [destruct D as [-> | ->]; reflexivity|exact E|]. destruct D; congruence.
Qed.
Lemma indented_not_marker w l : indented l -> ~ marker w l.
Proof.
  intros (c & r & -> & S & H & _) (w1 & w2 & t & w3 & r' & E & W & _). destruct (first_nonspace (L "  ") c r w1 "["%char (w2 ++ t ++ w3 ++ L "]" ++ r') sp2 W S) as (_ & X & _); auto.
Qed.
Lemma bracketed_head s l : bracketed s l -> exists r, l = "["%char :: r.
Proof. intros (w1 & w2 & -> & _). eexists. reflexivity. Qed.
Lemma variable_head l : variable_line l -> exists r, l = "["%char :: r.
Proof. intros [(n & _ & B)|(s & n & d & _ & B)]; eauto using bracketed_head. Qed.
Lemma indented_not_variable l : indented l -> ~ variable_line l.
Proof. intros (c & r & -> & _) V. apply variable_head in V as (x & E). discriminate. Qed.
Lemma blank_not_variable l : blank_line l -> ~ variable_line l.
Proof.
  intros B V. apply variable_head in V as (r & ->). destruct B as [B|(w & c & r' & E & W & D)]; [discriminate|].
  destruct (first_nonspace [] "["%char r w c r') as (_ & <- & _); auto; [intros x []|destruct D as [-> | ->]; reflexivity|]. destruct D; discriminate.
Qed.
Lemma blank_not_marker w l : blank_line l -> ~ marker w l.
Proof. intros B M. exact (marker_not_blank w l M B). Qed.
Definition vline (n : str) : str := L "[ " ++ n ++ L " ]".
Lemma vline_bracketed n : bracketed n (vline n).
Proof. exists (L " "), (L " "). split; [reflexivity|]. split; intros c [<-|[]]; reflexivity. Qed.
Lemma dash_in w t : lower t = w -> In "-"%char w -> In "-"%char t.
Proof.
  intros <- I. unfold lower in I. apply in_map_iff in I as (c & E & I). assert (c = "-"%char); [|congruence]. revert E. clear. destruct c as [[] [] [] [] [] [] [] []]; cbn; intros E; try discriminate; reflexivity.
Qed.
Lemma vline_not_marker n w : fortran_name n -> In "-"%char w -> ~ marker w (vline n).
Proof.
  intros N D (w1 & w2 & t & w3 & r & E & _ & _ & _ & LW). apply (dash_in w t LW) in D.
  assert (I : In "-"%char (vline n)) by (rewrite E; rewrite !in_app_iff; tauto). unfold vline in I. rewrite !in_app_iff in I. destruct I as [I|[I|I]].
  - cbn in I. repeat (destruct I as [I|I]; [discriminate|]). destruct I.
  - destruct N as (c & s & -> & A & B). destruct I as [->|I]; [discriminate|]. apply B in I. discriminate.
  - cbn in I. repeat (destruct I as [I|I]; [discriminate|]). destruct I.
Qed.
Lemma table_hdr : table_line (L "[ccpp-table-properties]") /\ ~ section_line (L "[ccpp-table-properties]").
Proof. split; [apply table_start_spec; reflexivity|apply header_start_false; reflexivity]. Qed.
Lemma section_hdr : section_line (L "[ccpp-arg-table]") /\ ~ table_line (L "[ccpp-arg-table]").
Proof. split; [apply header_start_spec; reflexivity|apply table_start_false; reflexivity]. Qed.

(* ---- settings ---- *)
Lemma settings_app a b ka kb : settings a ka -> settings b kb -> settings (a ++ b) (ka ++ kb).
Proof. intros (ea & FA & ->) (eb & FB & ->). exists (ea ++ eb). split; [now apply Forall2_app|]. now rewrite concat_app. Qed.
Lemma settings_blank ls : Forall blank_line ls -> settings ls [].
Proof.
  intros F. exists (map (fun _ => []) ls). split.
  - induction F; cbn; constructor; auto. left. auto.
  - clear. induction ls; [reflexivity|exact IHls].
Qed.
Lemma settings_one l kv r kvs : line_settings l kv -> settings r kvs -> settings (l :: r) (kv ++ kvs).
Proof. intros A (e & F & ->). exists (kv :: e). split; [now constructor|reflexivity]. Qed.
Lemma strip_line c r t d : c :: r = t ++ [d] -> is_space c = false -> is_space d = false -> strip (L "  " ++ c :: r) = c :: r.
Proof. intros E C D. unfold strip. rewrite (lstrip_all_space (L "  ") (c :: r) sp2). change (strip (c :: r) = c :: r). exact (strip_clean c r d t E C D). Qed.
(* blanks, a name, "= " and a value *)
Lemma setting_line c k v : is_space c = false -> c <> "["%char -> c <> "#"%char -> c <> ";"%char -> ~ In "="%char (c :: k) -> ~ In "|"%char (c :: k) -> word_text v ->
  indented (L "  " ++ c :: k ++ L "= " ++ v) /\ line_settings (L "  " ++ c :: k ++ L "= " ++ v) [(lower (strip (c :: k)), v)].
Proof.
  intros C1 C2 C3 C4 K1 K2 W. assert (I : indented (L "  " ++ c :: k ++ L "= " ++ v)) by (exists c, (k ++ L "= " ++ v); auto).
  split; [exact I|]. right. split; [now apply indented_not_blank|]. destruct (word_ends v W) as [_ (t & d & EV & D)]. destruct W as (V1 & V2 & V3).
  exists [(c :: k, " "%char :: v)]. split.
  - rewrite (strip_line c (k ++ L "= " ++ v) (c :: k ++ L "= " ++ t) d); auto; [|rewrite EV; cbn [app]; now rewrite <- !app_assoc].
    split; [discriminate|]. split; [cbn [map join fst snd app]; reflexivity|]. intros k' v' [E|[]]. injection E as <- <-. split; [exact K1|]. split; [exact K2|]. intros [X|X]; [discriminate|contradiction].
  - cbn [map fst snd]. assert (SV : strip (" "%char :: v) = v) by (change (strip (L " " ++ v) = v); unfold strip; rewrite lstrip_all_space; [exact V2|intros x [<-|[]]; reflexivity]). now rewrite SV.
Qed.
Lemma type_kind_line t k : word_text t -> word_text k -> indented (L "  type = " ++ t ++ L " | kind = " ++ k) /\ line_settings (L "  type = " ++ t ++ L " | kind = " ++ k) [(L "type", t); (L "kind", k)].
Proof.
  intros W K. assert (I : indented (L "  type = " ++ t ++ L " | kind = " ++ k)) by (exists "t"%char, (L "ype = " ++ t ++ L " | kind = " ++ k); repeat split; discriminate).
  split; [exact I|]. right. split; [now apply indented_not_blank|]. destruct (word_ends k K) as [_ (u & d & EK & D)]. destruct W as (T1 & T2 & T3), K as (K1 & K2 & K3).
  exists [(L "type ", L " " ++ t ++ L " "); (L " kind ", L " " ++ k)]. split.
  - change (L "  type = " ++ t ++ L " | kind = " ++ k) with (L "  " ++ "t"%char :: (L "ype = " ++ t ++ L " | kind = " ++ k)).
    rewrite (strip_line "t"%char (L "ype = " ++ t ++ L " | kind = " ++ k) ("t"%char :: L "ype = " ++ t ++ L " | kind = " ++ u) d); auto; [|rewrite EK; cbn [app]; rewrite <- !app_assoc; cbn [app]; now rewrite <- ?app_assoc].
    split; [discriminate|]. split; [cbn [map join fst snd app L list_ascii_of_string]; rewrite <- !app_assoc; reflexivity|]. intros k' v' [E|[E|[]]]; injection E as <- <-; (split; [intros X; cbn in X; repeat (destruct X as [X|X]; [discriminate|]); destruct X|]; split; [intros X; cbn in X; repeat (destruct X as [X|X]; [discriminate|]); destruct X|]).
    + intros [X|X]; [discriminate|]. apply in_app_or in X as [X|[X|[]]]; [contradiction|discriminate].
    + intros [X|X]; [discriminate|contradiction].
  - cbn [map fst snd]. assert (S1 : strip (L " " ++ t ++ L " ") = t).
    { assert (B : all_space (L " ")) by (intros x [<-|[]]; reflexivity). unfold strip in *. rewrite lstrip_all_space by exact B.
      destruct t as [|c0 t0]; [congruence|]. assert (HD : is_space c0 = false). { destruct (FWProofs.strip_parts (c0 :: t0) T2) as [E|[(c1 & t1 & E & H) _]]; [discriminate|]. injection E as -> _. exact H. }
      cbn [app]. unfold lstrip in *. cbn [dropwhile] in *. rewrite HD in *. change (rstrip ((c0 :: t0) ++ L " ") = c0 :: t0). rewrite rstrip_all_space by exact B. exact T2. }
    assert (S2 : strip (L " " ++ k) = k) by (unfold strip; rewrite lstrip_all_space; [exact K2|intros x [<-|[]]; reflexivity]). rewrite S1, S2. reflexivity.
Qed.

(* ---- one variable ---- *)
Definition reader_dims (C : checker) : Prop := exists f, c_prop C (L "dimensions") = Some f /\
  forall ds, (forall d, In d ds -> d <> [] /\ Forall fortran_name d) -> f (L "(" ++ join (L ",") (map (join (L ":")) ds) ++ L ")") = Some (PList (map (join (L ":")) ds)).
Definition reader_texts (C : checker) (d : props) : Prop := forall k x, In (k, PText x) d -> k <> L "local_name" -> k <> L "ddt_type" -> exists f, c_prop C k = Some f /\ f x = Some (PText x).
Lemma name_no c s : fortran_name s -> is_word c = false -> ~ In c s.
Proof. intros (a & r & -> & A & B) W [E|I]; [subst a; unfold is_word in W; rewrite A in W; discriminate W|apply B in I; congruence]. Qed.
Lemma range_ok d : d <> [] -> Forall fortran_name d -> as_range (join (L ":") d) (range_of d).
Proof.
  intros N F. destruct d as [|x [|y r]]; [congruence| |].
  - right. split; [|reflexivity]. cbn. inversion F; subst. apply name_no; [assumption|reflexivity].
  - left. split; [|reflexivity]. cbn [join]. apply in_or_app. right. now left.
Qed.
Lemma join_no c ss : c <> ":"%char -> is_word c = false -> Forall fortran_name ss -> ~ In c (join (L ":") ss).
Proof.
  intros NC W F. induction F as [|x l N F IH]; [intros []|]. destruct l as [|y r]; [now apply name_no|].
  cbn [join]. intros I. apply in_app_or in I as [I|[I|I]]; [exact (name_no c x N W I)|apply NC; now symmetry|exact (IH I)].
Qed.
Lemma join_comma_no c (l : list str) : c <> ","%char -> (forall x, In x l -> ~ In c x) -> ~ In c (join (L ",") l).
Proof.
  intros NC H. induction l as [|x l IH]; [intros []|]. destruct l as [|y r]; [apply H; now left|].
  cbn [join]. intros I. apply in_app_or in I as [I|[I|I]]; [exact (H x (or_introl eq_refl) I)|apply NC; now symmetry|apply IH; auto]. intros z Z. apply H. now right.
Qed.
Lemma dims_word rs : good_dims rs -> word_text (L "(" ++ join (L ",") (map (join (L ":")) rs) ++ L ")").
Proof.
  intros G. split; [discriminate|]. split.
  - apply (strip_clean "("%char (join (L ",") (map (join (L ":")) rs) ++ L ")") ")"%char (L "(" ++ join (L ",") (map (join (L ":")) rs))); reflexivity || (cbn [app L list_ascii_of_string]; rewrite <- ?app_assoc; reflexivity).
  - intros I. cbn [app L list_ascii_of_string] in I. destruct I as [I|I]; [discriminate|]. apply in_app_or in I as [I|[I|[]]]; [|discriminate].
    revert I. apply join_comma_no; [discriminate|]. intros x X. apply in_map_iff in X as (d & <- & D). apply join_no; [discriminate|reflexivity|]. now apply G.
Qed.
Definition lines_of (htype : str) (v : wvar) (rs : list (list str)) : list str := var_body htype v (map (join (L ":")) rs).
Definition kvs_of (htype : str) (v : wvar) (rs : list (list str)) : list (str * str) :=
  [(L "standard_name", w_std v)] ++ [(L "units", match w_units v with [] => L "enter_units" | u => u end)] ++
  (if str_eq_dec (w_type v) (w_kind v) then [(L "type", w_type v)] else (L "type", lower (w_type v)) :: match w_kind v with [] => [] | k => [(L "kind", lower k)] end) ++
  [(L "dimensions", L "(" ++ join (L ",") (map (join (L ":")) rs) ++ L ")")] ++ (if str_eq_dec htype (L "scheme") then [(L "intent", w_intent v)] else []).
Lemma key_line (k : string) v c r : L k = c :: r -> is_space c = false -> c <> "["%char -> c <> "#"%char -> c <> ";"%char -> forallb (fun x => negb (Ascii.eqb x "=") && negb (Ascii.eqb x "|")) (c :: r) = true -> word_text v ->
  indented (L "  " ++ L k ++ L "= " ++ v) /\ line_settings (L "  " ++ L k ++ L "= " ++ v) [(lower (strip (L k)), v)].
Proof.
  intros E C1 C2 C3 C4 N W. rewrite E. rewrite forallb_forall in N. apply setting_line; auto; intros I; apply N in I; discriminate.
Qed.
Lemma var_body_settings skip ddts htype v rs : var_ok skip ddts htype v -> good_dims rs ->
  Forall indented (lines_of htype v rs) /\ settings (lines_of htype v rs) (kvs_of htype v rs).
Proof.
  intros (OL & OS & OU & OD & OT & OI) G. unfold lines_of, var_body, kvs_of.
  destruct (key_line "standard_name " (w_std v) "s" (L "tandard_name ")) as [I1 S1]; try reflexivity; try discriminate; [now apply name_word|].
  destruct (key_line "units " (match w_units v with [] => L "enter_units" | u => u end) "u" (L "nits ")) as [I2 S2]; try reflexivity; try discriminate.
  { destruct OU as [-> |W]; [apply name_word; exists "e"%char, (L "nter_units"); repeat split; intros c I; cbn in I; repeat (destruct I as [<-|I]; [reflexivity|]); destruct I|]. destruct W as (W & W2). destruct (w_units v); [congruence|]. now split. }
  assert (T : indented (type_line v) /\ line_settings (type_line v) (if str_eq_dec (w_type v) (w_kind v) then [(L "type", w_type v)] else (L "type", lower (w_type v)) :: match w_kind v with [] => [] | k => [(L "kind", lower k)] end)).
  { unfold type_line. destruct (str_eq_dec (w_type v) (w_kind v)) as [E|NE].
    - destruct (OD E) as (W & _). assert (X : str_eqb (w_type v) (w_kind v) = true) by (now apply str_eqb_eq). rewrite X.
      destruct (key_line "type " (w_type v) "t" (L "ype ")) as [I3 S3]; try reflexivity; try discriminate; [exact W|]. split; [exact I3|exact S3].
    - destruct (OT NE) as (W & _ & K). assert (X : str_eqb (w_type v) (w_kind v) = false) by (now apply str_eqb_neq). rewrite X.
      destruct (w_kind v) as [|c k] eqn:EK; cbn [nil_str].
      + rewrite app_nil_r. destruct (key_line "type " (lower (w_type v)) "t" (L "ype ")) as [I3 S3]; try reflexivity; try discriminate; [exact W|]. split; [exact I3|exact S3].
      + destruct K as [K|K]; [discriminate|]. exact (type_kind_line (lower (w_type v)) (lower (c :: k)) W K). }
  destruct T as [I3 S3].
  destruct (key_line "dimensions " (L "(" ++ join (L ",") (map (join (L ":")) rs) ++ L ")") "d" (L "imensions ")) as [I4 S4]; try reflexivity; try discriminate; [now apply dims_word|].
  assert (S2' : line_settings (L "  units = " ++ (if nil_str (w_units v) then L "enter_units" else w_units v)) [(L "units", match w_units v with [] => L "enter_units" | u => u end)]) by (destruct (w_units v); exact S2).
  assert (I2' : indented (L "  units = " ++ (if nil_str (w_units v) then L "enter_units" else w_units v))) by (destruct (w_units v); exact I2).
  assert (TL : forall ls ks, Forall indented ls /\ settings ls ks -> Forall indented ([L "  standard_name = " ++ w_std v; L "  units = " ++ (if nil_str (w_units v) then L "enter_units" else w_units v); type_line v;
    L "  dimensions = (" ++ join (L ",") (map (join (L ":")) rs) ++ L ")"] ++ ls) /\ settings ([L "  standard_name = " ++ w_std v; L "  units = " ++ (if nil_str (w_units v) then L "enter_units" else w_units v); type_line v;
    L "  dimensions = (" ++ join (L ",") (map (join (L ":")) rs) ++ L ")"] ++ ls) ([(L "standard_name", w_std v)] ++ [(L "units", match w_units v with [] => L "enter_units" | u => u end)] ++
  (if str_eq_dec (w_type v) (w_kind v) then [(L "type", w_type v)] else (L "type", lower (w_type v)) :: match w_kind v with [] => [] | k => [(L "kind", lower k)] end) ++
  [(L "dimensions", L "(" ++ join (L ",") (map (join (L ":")) rs) ++ L ")")] ++ ks)).
  { intros ls ks [A B]. cbn [app]. split; [repeat constructor; assumption|].
    apply (settings_one _ [(L "standard_name", w_std v)]); [exact S1|]. apply (settings_one _ [(L "units", _)]); [exact S2'|]. apply settings_one; [exact S3|].
    apply (settings_one _ [(L "dimensions", _)]); [exact S4|exact B]. }
  apply TL. destruct (str_eq_dec htype (L "scheme")) as [-> |NE].
  - rewrite str_eqb_refl. destruct (key_line "intent " (w_intent v) "i" (L "ntent ")) as [I5 S5]; try reflexivity; try discriminate; [now apply OI|].
    split; [repeat constructor; exact I5|]. apply (settings_one _ [(L "intent", w_intent v)] [] []); [exact S5|]. exists []. split; [constructor|reflexivity].
  - assert (X : str_eqb htype (L "scheme") = false) by (now apply str_eqb_neq). rewrite X. split; [constructor|]. exists []. split; [constructor|reflexivity].
Qed.
Lemma fold_put ps : forall d, fold_left (fun (d : props) (p : str * pval) => assign d (fst p) (snd p)) ps d = fold_left (fun d p => put (fst p) (snd p) d) ps d.
Proof. induction ps as [|p ps IH]; intros d; [reflexivity|]. cbn [fold_left]. rewrite IH. now rewrite put_assign. Qed.
Lemma var_reads C skip ddts htype (K : str -> Prop) v rs x : (forall t, In t ddts -> K t) -> var_ok skip ddts htype v -> good_dims rs -> Forall blank_line x -> reader_dims C -> reader_texts C (props_of htype v rs) ->
  c_var C (props_of htype v rs) = true -> var_means C skip K (vline (w_local v)) (lines_of htype v rs ++ x) (props_of htype v rs).
Proof.
  intros HK OK G X (fd & FD & RD) RT CV. destruct (var_body_settings skip ddts htype v rs OK G) as [_ S].
  exists (kvs_of htype v rs), (tl (props_of htype v rs)). split; [rewrite <- (app_nil_r (kvs_of htype v rs)); apply settings_app; [exact S|now apply settings_blank]|].
  destruct OK as (OL & OS & OU & OD & OT & OI).
  assert (TX : forall (k : string) t, In (L k, PText t) (props_of htype v rs) -> L k <> L "type" -> L k <> L "local_name" -> L k <> L "ddt_type" -> L k <> L "dimensions" -> property C skip K (L k, t) (L k, PText t)).
  { intros k t I N1 N2 N3 N4. destruct (RT (L k) t I N2 N3) as (f & F1 & F2). right. split; [intros [E _]; contradiction|]. exists f, (PText t). split; [exact F1|]. split; [exact F2|]. left. auto. }
  split; [|split; [exact CV|]].
  - unfold kvs_of, props_of. cbn [tl app]. constructor; [apply (TX "standard_name"); try discriminate; right; now left|]. constructor; [apply (TX "units"); try discriminate; right; right; now left|].
    apply Forall2_app; [|constructor].
    + destruct (str_eq_dec (w_type v) (w_kind v)) as [E|NE].
      * destruct (OD E) as (_ & NT & KN). constructor; [|constructor]. left. split; [reflexivity|]. split; [exact NT|]. split; [|reflexivity]. destruct KN; auto.
      * destruct (OT NE) as (_ & TT & _). constructor.
        -- destruct (RT (L "type") (lower (w_type v))) as (f & F1 & F2); try discriminate.
           { unfold props_of. destruct (str_eq_dec (w_type v) (w_kind v)); [contradiction|]. right. right. right. now left. }
           right. split; [intros [_ N]; contradiction|]. exists f, (PText (lower (w_type v))). split; [exact F1|]. split; [exact F2|]. left. split; [discriminate|reflexivity].
        -- destruct (w_kind v) as [|c k] eqn:EK; [constructor|]. constructor; [|constructor]. apply (TX "kind"); try discriminate. unfold props_of. destruct (str_eq_dec (w_type v) (w_kind v)); [elim NE; congruence|]. rewrite EK. right. right. right. right. now left.
    + right. split; [intros [E _]; discriminate|]. exists fd, (PList (map (join (L ":")) rs)). split; [exact FD|]. split; [now apply RD|]. right. left. split; [reflexivity|].
      eexists. eexists. split; [reflexivity|]. split; [|reflexivity]. assert (G' := G). clear -G'. induction rs as [|d rs IH]; [constructor|]. cbn. constructor.
      * apply range_ok; apply (G' d); now left.
      * apply IH. intros d' I. apply G'. now right.
    + destruct (str_eq_dec htype (L "scheme")) as [E|NE]; [|constructor]. constructor; [|constructor]. apply (TX "intent"); try discriminate.
      unfold props_of. destruct (str_eq_dec htype (L "scheme")) as [E2|NE]; [|elim NE; exact E]. apply in_or_app. right. apply in_or_app. right. apply in_or_app. right. now left.
  - left. exists (w_local v). split; [exact OL|]. split; [apply vline_bracketed|].
    rewrite fold_put. unfold props_of. destruct (str_eq_dec (w_type v) (w_kind v)), (str_eq_dec htype (L "scheme")), (w_kind v); reflexivity.
Qed.

(* ---- cutting the lines ---- *)
Definition hb_lines (hb : str * list str) : list str := fst hb :: snd hb.
Definition A_line : str := L "[ccpp-arg-table]".
Definition P_line : str := L "[ccpp-table-properties]".
Fixpoint shift (H sep : str) (bodies : list (list str)) (x : list str) : list (str * list str) :=
  match bodies with [] => [] | b :: r => (H, b ++ match r with [] => x | _ => [sep] end) :: shift H sep r x end.
Lemma shift_text H sep bodies x : bodies <> [] -> sep :: List.concat (map hb_lines (shift H sep bodies x)) = List.concat (map (fun b => sep :: H :: b) bodies) ++ x.
Proof.
  induction bodies as [|b r IH]; [congruence|]. intros _. cbn [shift map List.concat hb_lines fst snd]. unfold hb_lines at 1. cbn [fst snd app].
  destruct r as [|b2 r]; [cbn; now rewrite !app_nil_r|]. rewrite <- !app_assoc. cbn [app]. rewrite IH by discriminate. reflexivity.
Qed.
Fixpoint addlast (bs : list (str * list str)) (x : list str) : list (str * list str) :=
  match bs with [] => [] | [(h, b)] => [(h, b ++ x)] | hb :: r => hb :: addlast r x end.
Lemma addlast_text bs x : bs <> [] -> List.concat (map hb_lines (addlast bs x)) = List.concat (map hb_lines bs) ++ x.
Proof.
  induction bs as [|[h b] r IH]; [congruence|]. intros _. destruct r as [|hb r]; [cbn; now rewrite !app_nil_r|].
  change (addlast ((h, b) :: hb :: r) x) with ((h, b) :: addlast (hb :: r) x). cbn [map List.concat]. cbn [map List.concat] in IH. rewrite IH by discriminate. now rewrite <- !app_assoc.
Qed.
Lemma addlast_rel {A} (R : str * list str -> A -> Prop) bs x ps : (forall h b p, R (h, b) p -> R (h, b ++ x) p) -> Forall2 R bs ps -> Forall2 R (addlast bs x) ps.
Proof.
  intros H F. induction F as [|[h b] p bs ps HR F IH]; [constructor|]. destruct bs as [|hb r]; [inversion F; subst; repeat constructor; now apply H|].
  change (addlast ((h, b) :: hb :: r) x) with ((h, b) :: addlast (hb :: r) x). constructor; auto.
Qed.

(* ---- the variables of a section ---- *)
Definition VB (skip : bool) (ddts : list str) (htype : str) (hb : str * list str) (p : props) : Prop :=
  exists v rs y, (fst hb = vline (w_local v) /\ snd hb = lines_of htype v rs ++ y) /\ p = props_of htype v rs /\ Forall blank_line y /\ var_ok skip ddts htype v /\ good_dims rs.
Lemma VB_add skip ddts htype x : Forall blank_line x -> forall h b p, VB skip ddts htype (h, b) p -> VB skip ddts htype (h, b ++ x) p.
Proof.
  intros X h b p (v & rs & y & (E1 & E2) & P & Y & O & G). cbn [fst snd] in E1, E2. exists v, rs, (y ++ x). cbn [fst snd]. split; [split; [exact E1|now rewrite E2, app_assoc]|]. split; [exact P|]. split; [now apply Forall_app|]. auto.
Qed.
Lemma vars_split skip ddts htype vs : forall ns n, std_ok ns -> (forall v, In v vs -> var_ok skip ddts htype v) ->
  exists bs ps m, write_vars htype ns n vs = (List.concat (map hb_lines bs), m) /\ vars_read htype ns n vs ps m /\ Forall2 (VB skip ddts htype) bs ps.
Proof.
  induction vs as [|v vs IH]; intros ns n SO VO; cbn [write_vars].
  - exists [], [], n. split; [reflexivity|]. split; constructor.
  - assert (OV := VO v (or_introl eq_refl)).
    assert (SO2 : std_ok ((w_local v, w_std v) :: ns)). { intros b s [E|I]; [injection E as <- <-; apply OV|exact (SO b s I)]. }
    destruct (dims_total _ SO2 n (w_dims v)) as (rs & k & E & R & G). rewrite E.
    destruct (IH ((w_local v, w_std v) :: ns) k SO2) as (bs & ps & m & W & VR & F); [intros u U; apply VO; now right|]. rewrite W.
    exists ((vline (w_local v), lines_of htype v rs) :: bs), (props_of htype v rs :: ps), m. split; [reflexivity|]. split; [now apply VR_cons with (k := k)|].
    constructor; [|exact F]. exists v, rs, []. rewrite app_nil_r. split; [split; reflexivity|]. split; [reflexivity|]. split; [constructor|]. auto.
Qed.
Definition plain (l : str) : Prop := ~ section_line l /\ ~ table_line l.
Lemma indented_plain l : indented l -> plain l.
Proof. intros I. split; now apply indented_not_marker. Qed.
Lemma blank_plain l : blank_line l -> plain l.
Proof. intros I. split; now apply blank_not_marker. Qed.
Lemma VB_lines skip ddts htype h b p : VB skip ddts htype (h, b) p -> variable_line h /\ plain h /\ forall l, In l b -> plain l /\ ~ variable_line l.
Proof.
  intros (v & rs & y & (E1 & E2) & _ & Y & O & G). cbn [fst snd] in E1, E2. subst h b. assert (N : fortran_name (w_local v)) by apply O.
  split; [left; exists (w_local v); split; [exact N|apply vline_bracketed]|]. split.
  - split; apply vline_not_marker; auto; cbn; tauto.
  - destruct (var_body_settings skip ddts htype v rs O G) as [F _]. rewrite Forall_forall in F, Y. intros l I. apply in_app_or in I as [I|I].
    + apply F in I. split; [now apply indented_plain|now apply indented_not_variable].
    + apply Y in I. split; [now apply blank_plain|now apply blank_not_variable].
Qed.
Definition sec_takes (C : checker) (ps : list props) : Prop := forall a d b, ps = a ++ d :: b -> c_var C d = true /\ c_add C a d = true /\ reader_texts C d.
Lemma vars_means C skip ddts htype (K : str -> Prop) : (forall t, In t ddts -> K t) -> reader_dims C -> forall bs ps done, Forall2 (VB skip ddts htype) bs ps -> sec_takes C (done ++ ps) -> vars_mean C skip K done bs (done ++ ps).
Proof.
  intros HK RD bs ps. revert bs. induction ps as [|p ps IH]; intros bs done F T.
  - inversion F; subst. rewrite app_nil_r. constructor.
  - inversion F as [|hb ? bs' ? HB F']; subst. destruct HB as (v & rs & y & (E1 & E2) & -> & Y & O & G). destruct hb as [h b]. cbn [fst snd] in E1, E2. subst h b. destruct (T done _ ps eq_refl) as (T1 & T2 & T3).
    apply VMore with (d := props_of htype v rs); [now apply (var_reads C skip ddts)|exact T2|].
    replace (done ++ props_of htype v rs :: ps) with ((done ++ [props_of htype v rs]) ++ ps) in * by (now rewrite <- app_assoc). now apply IH.
Qed.

(* ---- a section ---- *)
Definition sec_good (skip : bool) (dmod : str) (ddts : list str) (name typ : str) (b : list str) (s : section) : Prop :=
  (forall l, In l b -> plain l) /\
  forall C (K : str -> Prop) x, Forall blank_line x -> (forall t, In t ddts -> K t) -> reader_dims C -> sec_takes C (s_vars s) ->
    section_means C skip dmod K (Some name) (Some typ) (b ++ x) s.
Lemma last_set_two k1 v1 k2 v2 k o : last_set [(k1, v1); (k2, v2)] k o <-> o = (if str_eqb k2 k then Some v2 else if str_eqb k1 k then Some v1 else None).
Proof.
  rewrite last_set_spec. cbn [lastv]. 
  assert (SY : forall a b, str_eqb a b = str_eqb b a) by (intros a b; destruct (str_eqb a b) eqn:E, (str_eqb b a) eqn:F; auto; [apply str_eqb_eq in E; subst; now rewrite str_eqb_refl in F|apply str_eqb_eq in F; subst; now rewrite str_eqb_refl in E]).
  rewrite ?(SY k k1), ?(SY k k2). destruct (str_eqb k2 k), (str_eqb k1 k); split; intros H; now symmetry.
Qed.
Lemma section_ok skip dmod ddts name typ s n : In typ [L "ddt"; L "module"; L "host"; L "scheme"] -> sec_ok skip ddts name typ s ->
  exists ps m vl, write_vars (ws_type s) [(L "1", L "ccpp_constant_one")] n (ws_vars s) = (vl, m) /\ vars_read (ws_type s) [(L "1", L "ccpp_constant_one")] n (ws_vars s) ps m /\
    sec_good skip dmod ddts name typ ([L "  name  = " ++ ws_title s; L "  type  = " ++ ws_type s] ++ vl) (mkS (ws_title s) (ws_type s) dmod (L "UNKNOWN") ps).
Proof.
  intros TI (WT & ET & TN & VO). assert (SO : std_ok [(L "1", L "ccpp_constant_one")]).
  { intros b t [E|[]]. injection E as <- <-. exists "c"%char, (L "cpp_constant_one"). split; [reflexivity|]. split; [reflexivity|]. intros c I. cbn in I. repeat (destruct I as [<-|I]; [reflexivity|]). destruct I. }
  rewrite ET. destruct (vars_split skip ddts typ (ws_vars s) _ n SO VO) as (bs & ps & m & W & R & F). exists ps, m. eexists. split; [exact W|]. split; [exact R|].
  destruct (key_line "name  " (ws_title s) "n" (L "ame  ")) as [I1 S1]; try reflexivity; try discriminate; [exact WT|].
  assert (WY : word_text typ) by (destruct TI as [<-|[<-|[<-|[<-|[]]]]]; (split; [discriminate|split; [reflexivity|intros X; cbn in X; repeat (destruct X as [X|X]; [discriminate|]); destruct X]])).
  destruct (key_line "type  " typ "t" (L "ype  ")) as [I2 S2]; try reflexivity; try discriminate; [exact WY|].
  assert (BL : forall bs ps, Forall2 (VB skip ddts typ) bs ps -> (forall h b, In (h, b) bs -> variable_line h /\ plain h /\ forall l, In l b -> plain l /\ ~ variable_line l)).
  { intros bs0 ps0 F0. induction F0 as [|[h b] p bs0 ps0 HV F0 IH]; intros h0 b0 I; [destruct I|]. destruct I as [E|I]; [injection E as <- <-; now apply (VB_lines skip ddts typ h b p)|now apply IH]. }
  split.
  - intros l I. destruct I as [<-|[<-|I]]; [now apply indented_plain|now apply indented_plain|]. change (In l (List.concat (map hb_lines bs))) in I.
    apply in_concat in I as (y & Y & I). apply in_map_iff in Y as ([h b] & <- & Y). destruct (BL _ _ F _ _ Y) as (_ & B1 & B2). destruct I as [<-|I]; [exact B1|now apply B2].
  - intros C K x X HK RD T. cbn [s_vars s_type s_title s_module s_process] in *.
    exists ([L "  name  = " ++ ws_title s; L "  type  = " ++ typ] ++ match bs with [] => x | _ => [] end), (addlast bs x), [(L "name", ws_title s); (L "type", typ)], None.
    assert (F2 := addlast_rel _ bs x ps (VB_add skip ddts typ x X) F). assert (SB : settings (match bs with [] => x | _ => [] end) []) by (destruct bs; [now apply settings_blank|exists []; split; [constructor|reflexivity]]).
    split; [|split; [|split; [|split; [|split; [|split; [|split; [|split; [|split; [|split; [|split; [|split; [|split]]]]]]]]]]]].
    + split; [|split].
      * destruct bs as [|hb r]; [cbn; now rewrite app_nil_r|]. change (map (fun hb0 => fst hb0 :: snd hb0) (addlast (hb :: r) x)) with (map hb_lines (addlast (hb :: r) x)). rewrite addlast_text by discriminate. rewrite app_nil_r. now rewrite <- app_assoc.
      * intros l I. apply in_app_or in I as [[<-|[<-|[]]]|I]; [now apply indented_not_variable|now apply indented_not_variable|]. destruct bs; [|destruct I]. rewrite Forall_forall in X. now apply blank_not_variable, X.
      * intros h b I. destruct (BL _ _ F2 _ _ I) as (B1 & _ & B2). split; [exact B1|]. intros l L'. now apply B2.
    + apply (settings_one _ [(L "name", _)]); [exact S1|]. apply (settings_one _ [(L "type", _)]); [exact S2|exact SB].
    + intros k v [E|[E|[]]]; injection E as <- <-; cbn; tauto.
    + intros v [E|[E|[]]]; [discriminate|]. injection E as <-. cbn in TI |- *. tauto.
    + intros v [E|[E|[]]]; discriminate.
    + now apply last_set_two.
    + now apply last_set_two.
    + right. split; [now apply last_set_two|reflexivity].
    + now apply last_set_two.
    + reflexivity.
    + intros N. exfalso. now apply N.
    + reflexivity.
    + exists name. split; [reflexivity|]. exact TN.
    + apply (vars_means C skip ddts typ _ (fun t I => or_introl (HK t I)) RD (addlast bs x) ps [] F2). exact T.
Qed.

(* ---- sections of a group ---- *)
Lemma write_secs_app hs a : forall n b, write_secs hs n (a ++ b) = let (x, k) := write_secs hs n a in let (y, m) := write_secs hs k b in (x ++ y, m).
Proof.
  induction a as [|s a IH]; intros n b; cbn [write_secs app]; [now destruct (write_secs hs n b)|].
  destruct (write_vars _ _ _ _) as [vl k]. rewrite IH. destruct (write_secs hs k a) as [x k2]. destruct (write_secs hs k2 b) as [y m]. f_equal. repeat (rewrite <- app_assoc; cbn [app]). reflexivity.
Qed.
Lemma secs_ok skip dmod ddts name typ sep ss : In typ [L "ddt"; L "module"; L "host"; L "scheme"] -> forall n, (forall s, In s ss -> sec_ok skip ddts name typ s) ->
  exists bds rs m, write_secs [sep] n ss = (List.concat (map (fun b => sep :: A_line :: b) bds), m) /\ secs_read dmod n ss rs m /\ Forall2 (sec_good skip dmod ddts name typ) bds rs.
Proof.
  intros TI. induction ss as [|s ss IH]; intros n OK.
  - exists [], [], n. split; [reflexivity|]. split; constructor.
  - destruct (section_ok skip dmod ddts name typ s n TI (OK s (or_introl eq_refl))) as (ps & k & vl & W & R & G).
    destruct (IH k (fun u U => OK u (or_intror U))) as (bds & rs & m & W2 & R2 & F). cbn [write_secs]. rewrite W, W2.
    eexists (_ :: bds), (_ :: rs), m. split; [|split; [apply SR_cons with (k := k); eassumption|constructor; eassumption]].
    cbn [map List.concat app]. repeat (rewrite <- ?app_assoc; cbn [app]). reflexivity.
Qed.
Lemma same_tables sep name g : name <> [] -> forall n rest, (forall t, In t g -> wt_name t = name) ->
  write_tables sep [sep] name n (g ++ rest) = let (b, k) := write_secs [sep] n (List.concat (map wt_secs g)) in let (r, m) := write_tables sep [sep] name k rest in (b ++ r, m).
Proof.
  intros NE. induction g as [|t g IH]; intros n rest N; cbn [write_tables app map List.concat write_secs]; [now destruct (write_tables sep [sep] name n rest)|].
  rewrite (N t (or_introl eq_refl)), str_eqb_refl. destruct name as [|c0 nm]; [congruence|]. cbn [nil_str orb negb].
  rewrite write_secs_app. destruct (write_secs [sep] n (wt_secs t)) as [x k]. rewrite IH by (intros u U; apply N; now right).
  destruct (write_secs [sep] k _) as [y k2]. destruct (write_tables sep [sep] (c0 :: nm) k2 rest) as [r m]. cbn [app]. now rewrite app_assoc.
Qed.
Lemma group_tables sep hs last name typ g : name <> [] -> last <> name -> g <> [] -> forall n rest, (forall t, In t g -> wt_name t = name /\ wt_type t = typ) ->
  write_tables sep hs last n (g ++ rest) = let (b, k) := write_secs [sep] n (List.concat (map wt_secs g)) in let (r, m) := write_tables sep [sep] name k rest in
    (hs ++ P_line :: (L "  name = " ++ name) :: (L "  type = " ++ typ) :: b ++ r, m).
Proof.
  intros NE LN GN n rest N. destruct g as [|t g]; [congruence|]. destruct (N t (or_introl eq_refl)) as [N1 N2]. cbn [write_tables app map List.concat].
  assert (E : nil_str last || negb (str_eqb last (wt_name t)) = true).
  { rewrite N1. destruct (str_eqb last name) eqn:E; [apply str_eqb_eq in E; congruence|]. apply orb_true_r. }
  rewrite E, N1, N2, write_secs_app. destruct (write_secs [sep] n (wt_secs t)) as [x k]. rewrite same_tables by (auto; intros u U; now apply N; right).
  destruct (write_secs [sep] k _) as [y k2]. destruct (write_tables sep [sep] name k2 rest) as [r m]. f_equal. rewrite <- !app_assoc. cbn [app]. now rewrite <- ?app_assoc.
Qed.

(* ---- a group ---- *)
Definition group_good (skip : bool) (dmod : str) (ddts : list str) (b : list str) (t : table) : Prop :=
  (forall l, In l b -> ~ table_line l) /\
  forall C (K : str -> Prop) x, Forall blank_line x -> (forall t, In t ddts -> K t) -> reader_dims C -> (forall s, In s (t_sections t) -> sec_takes C (s_vars s)) ->
    table_means C skip dmod K (b ++ x) t.
Definition gbody (sep name typ : str) (bds : list (list str)) : list str := (L "  name = " ++ name) :: (L "  type = " ++ typ) :: List.concat (map (fun b => sep :: A_line :: b) bds).
Lemma shift_in H sep bodies x h b : blank_line sep -> Forall blank_line x -> In (h, b) (shift H sep bodies x) -> h = H /\ exists b0 y, In b0 bodies /\ b = b0 ++ y /\ Forall blank_line y.
Proof.
  intros SB X. induction bodies as [|c r IH]; intros I; [destruct I|]. cbn [shift] in I. destruct I as [E|I].
  - apply pair_equal_spec in E as [<- <-]. split; [reflexivity|]. exists c. eexists. split; [now left|]. split; [reflexivity|]. destruct r; [exact X|constructor; [exact SB|constructor]].
  - destruct (IH I) as [E (b0 & y & I0 & E0 & Y)]. split; [exact E|]. exists b0, y. split; [now right|]. auto.
Qed.
Lemma shift_rel {A} (R Q : list str -> A -> Prop) H sep bodies x ts : blank_line sep -> Forall blank_line x -> (forall b t y, Forall blank_line y -> In t ts -> R b t -> Q (b ++ y) t) ->
  Forall2 R bodies ts -> Forall2 (fun hb t => Q (snd hb) t) (shift H sep bodies x) ts.
Proof.
  intros SB X HQ F. induction F as [|b t r ts HR F IH]; cbn [shift]; constructor.
  - cbn [snd]. apply HQ; [destruct r; [exact X|constructor; [exact SB|constructor]]|now left|exact HR].
  - apply IH. intros b0 t0 y Y I. apply HQ; [exact Y|now right].
Qed.
Lemma shift_len H sep bodies x : length (shift H sep bodies x) = length bodies.
Proof. induction bodies; cbn; congruence. Qed.
Lemma type_word typ : In typ [L "ddt"; L "module"; L "host"; L "scheme"] -> word_text typ.
Proof. intros [<-|[<-|[<-|[<-|[]]]]]; (split; [discriminate|split; [reflexivity|intros X; cbn in X; repeat (destruct X as [X|X]; [discriminate|]); destruct X]]). Qed.
Lemma group_is_good skip dmod ddts sep name typ bds rs : blank_line sep -> word_text name -> In typ [L "ddt"; L "module"; L "host"; L "scheme"] -> bds <> [] -> (typ <> L "scheme" -> length bds = 1) ->
  Forall2 (sec_good skip dmod ddts name typ) bds rs -> group_good skip dmod ddts (gbody sep name typ bds) (mkT (Some name) (Some typ) [] None rs).
Proof.
  intros SB WN TI NB LB F.
  destruct (key_line "name " name "n" (L "ame ")) as [I1 S1]; try reflexivity; try discriminate; [exact WN|].
  destruct (key_line "type " typ "t" (L "ype ")) as [I2 S2]; try reflexivity; try discriminate; [now apply type_word|].
  assert (BP : forall b l, In b bds -> In l b -> plain l).
  { clear NB LB. induction F as [|b0 r0 bds rs HG F IH]; intros b l I J; [destruct I|]. destruct I as [<-|I]; [now apply HG|now apply (IH b l)]. }
  split.
  - intros l [<-|[<-|I]]; [now apply indented_plain|now apply indented_plain|]. apply in_concat in I as (y & Y & I). apply in_map_iff in Y as (b & <- & Y).
    destruct I as [<-|[<-|I]]; [now apply blank_plain|apply section_hdr|now apply (BP b l)].
  - intros C K x X HK RD T. cbn [t_sections] in T.
    exists ([L "  name = " ++ name; L "  type = " ++ typ; sep]), (shift A_line sep bds x), [(L "name", name); (L "type", typ)]. cbn [t_name t_type t_path t_deps t_sections].
    split; [|split; [|split; [|split; [|split; [|split; [|split; [|split; [|split]]]]]]]].
    + split; [|split].
      * unfold gbody. cbn [app]. f_equal. f_equal. symmetry. exact (shift_text A_line sep bds x NB).
      * intros l [<-|[<-|[<-|[]]]]; [now apply indented_plain|now apply indented_plain|now apply blank_plain].
      * intros h b I. apply shift_in in I as [-> (b0 & y & I0 & -> & Y)]; auto. split; [apply section_hdr|]. intros l I. apply in_app_or in I as [I|I]; [now apply (BP b0 l)|].
        rewrite Forall_forall in Y. now apply blank_plain, Y.
    + apply (settings_one _ [(L "name", _)]); [exact S1|]. apply (settings_one _ [(L "type", _)]); [exact S2|]. apply settings_blank. constructor; [exact SB|constructor].
    + intros k v [E|[E|[]]]; injection E as <- <-; cbn; tauto.
    + intros v [E|[E|[]]]; [discriminate|]. injection E as <-. cbn in TI |- *. tauto.
    + now apply last_set_two.
    + now apply last_set_two.
    + now apply last_set_two.
    + assert (VE : values_of (L "dependencies") [(L "name", name); (L "type", typ)] = []).
      { unfold values_of. cbn [List.filter fst]. destruct (str_eq_dec (L "name") (L "dependencies")); [discriminate|]. destruct (str_eq_dec (L "type") (L "dependencies")); [discriminate|reflexivity]. }
      rewrite VE. left. split; [intros v []|]. exists []. split; [constructor|reflexivity].
    + apply (shift_rel (sec_good skip dmod ddts name typ)); auto. intros b t y Y I [_ G]. apply G; auto.
    + intros I. rewrite shift_len. destruct (str_eq_dec typ (L "scheme")) as [->|N]; [|rewrite LB; auto]. exfalso. destruct I as [I|[I|[I|[]]]]; discriminate.
Qed.

(* ---- the file ---- *)
Lemma secs_len {A B} (R : A -> B -> Prop) a b : Forall2 R a b -> length a = length b.
Proof. induction 1; cbn; congruence. Qed.
Lemma secs_read_len dmod n ss rs m : secs_read dmod n ss rs m -> length ss = length rs.
Proof. induction 1; cbn; congruence. Qed.
Fixpoint laid (sep : str) (hs : list str) (bodies : list (list str)) : list str := match bodies with [] => [] | b :: r => hs ++ P_line :: b ++ laid sep [sep] r end.
Lemma laid_text sep bodies : laid sep [] bodies = List.concat (map hb_lines (shift P_line sep bodies [])).
Proof.
  assert (G : forall r, laid sep [sep] r = List.concat (map (fun b => sep :: P_line :: b) r)). { induction r as [|b r IH]; cbn [laid map List.concat app]; [reflexivity|]. now rewrite IH. }
  destruct bodies as [|b r]; [reflexivity|]. assert (E := shift_text P_line sep (b :: r) [] ltac:(discriminate)). rewrite app_nil_r in E. rewrite <- G in E. apply (f_equal (@tl str)) in E. cbn [tl] in E. rewrite E. reflexivity.
Qed.
Lemma groups_ok skip dmod ddts sep : blank_line sep -> forall gs hs last n, Forall (group_ok skip ddts) gs -> NoDup (last :: map (fun g => fst (fst g)) gs) ->
  exists bodies ts m, write_tables sep hs last n (List.concat (map snd gs)) = (laid sep hs bodies, m) /\ groups_read dmod n gs ts m /\ Forall2 (group_good skip dmod ddts) bodies ts /\ map t_name ts = map (fun g => Some (fst (fst g))) gs.
Proof.
  intros SB. induction gs as [|[[name typ] g] gs IH]; intros hs last n OK ND.
  - exists [], [], n. split; [reflexivity|]. split; [constructor|]. split; [constructor|reflexivity].
  - assert (OG := Forall_inv OK). assert (OK' := Forall_inv_tail OK). unfold group_ok in OG. destruct OG as (WN & TI & GN & GT & GL). cbn [map fst snd] in ND |- *. inversion ND as [|? ? NI ND']; subst.
    assert (LN : last <> name) by (intros ->; apply NI; now left).
    cbn [List.concat]. rewrite (group_tables sep hs last name typ g (proj1 WN) LN GN n) by (intros t T; destruct (GT t T) as (A & B & _); auto).
    assert (SO : forall s, In s (List.concat (map wt_secs g)) -> sec_ok skip ddts name typ s).
    { intros s I. apply in_concat in I as (y & Y & I). apply in_map_iff in Y as (t & <- & T). now apply (GT t T). }
    destruct (secs_ok skip dmod ddts name typ sep _ TI n SO) as (bds & rs & k & W & R & F). rewrite W.
    destruct (IH [sep] name k OK' ND') as (bodies & ts & m & W2 & R2 & F2 & E2). rewrite W2.
    exists (gbody sep name typ bds :: bodies), (mkT (Some name) (Some typ) [] None rs :: ts), m.
    split; [|split; [apply GR_cons with (k := k); assumption|split; [constructor; [|exact F2]|cbn [map t_name]; now f_equal]]].
    + cbn [laid gbody app]. unfold gbody. now rewrite <- ?app_assoc.
    + assert (LE : length (List.concat (map wt_secs g)) = length bds) by (now rewrite (secs_read_len _ _ _ _ _ R), (secs_len _ _ _ F)).
      apply group_is_good; auto; [|intros N; rewrite <- LE; auto].
      intros ->. destruct g as [|t g]; [congruence|]. destruct (GT t (or_introl eq_refl)) as (_ & _ & NS & _). cbn in LE. destruct (wt_secs t); [congruence|discriminate].
Qed.
Lemma tables_ok skip dmod ddts sep C : blank_line sep -> reader_dims C -> forall bodies ts (K : str -> Prop), (forall t, In t ddts -> K t) -> Forall2 (group_good skip dmod ddts) bodies ts ->
  (forall t s, In t ts -> In s (t_sections t) -> sec_takes C (s_vars s)) -> tables_mean C skip dmod K (shift P_line sep bodies []) ts.
Proof.
  intros SB RD bodies ts K HK F. revert K HK. induction F as [|b t r ts [_ G] F IH]; intros K HK T; cbn [shift]; [constructor|].
  constructor; [apply G; auto; [destruct r; [constructor|constructor; [exact SB|constructor]]|intros s I; apply (T t s); auto; now left]|].
  apply IH; [intros u U; left; auto|]. intros u s U. apply T. now right.
Qed.
Lemma file_ok C skip dmod ddts sep n gs : blank_line sep -> Forall (group_ok skip ddts) gs -> NoDup (map (fun g => fst (fst g)) gs) ->
  exists ts m, groups_read dmod n gs ts m /\ (takes C ts -> file_means C skip dmod ddts (write_metadata_file sep n (List.concat (map snd gs))) ts).
Proof.
  intros SB OK ND. assert (ND2 : NoDup ([] :: map (fun g : str * str * list wtab => fst (fst g)) gs)).
  { constructor; [|exact ND]. intros I. apply in_map_iff in I as ([[name typ] g] & E & I). rewrite Forall_forall in OK. destruct (OK _ I) as ((NE & _) & _). now apply NE. }
  destruct (groups_ok skip dmod ddts sep SB gs [] [] n OK ND2) as (bodies & ts & m & W & R & F & E). exists ts, m. split; [exact R|]. intros ((f & FD & FT) & T).
  unfold write_metadata_file. rewrite W. cbn [fst]. rewrite laid_text.
  exists [], (shift P_line sep bodies []). split; [|split; [intros l []|split]].
  - split; [reflexivity|]. split; [intros l []|]. intros h b I. apply shift_in in I as [-> (b0 & y & I0 & -> & Y)]; auto. split; [apply table_hdr|]. intros l I. apply in_app_or in I as [I|I].
    + clear - F I0 I. induction F as [|b1 t1 r1 ts1 [G _] F IH]; [destruct I0|]. destruct I0 as [<-|I0]; auto.
    + rewrite Forall_forall in Y. now apply blank_plain, Y.
  - apply (tables_ok skip dmod ddts); auto; [exists f; split; [exact FD|exact FT]|]. intros t s I J a d b D. destruct (T t s a d b I J D) as (A & B & H). split; [exact A|]. split; [exact B|exact H].
  - rewrite E. clear - ND. induction gs as [|g gs IH]; [constructor|]. cbn [map] in *. inversion ND; subst. constructor; auto. intros I. apply in_map_iff in I as (g2 & E & I). apply H1. apply in_map_iff. exists g2. split; [congruence|exact I].
Qed.
