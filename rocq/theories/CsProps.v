(* CsProps.v: properties C157-C161. *)
From Verif Require Import PyStr Regex PhaseSpec CheckModel CheckSpec CheckProofs DictModel DictProofs HdrModel HdrProofs CsModel CsSpec CsProofs CsMore CsDim.
Open Scope nat_scope.
Open Scope list_scope.

(* ---- a dictionary of the kind the examples of the framework use ---- *)
Definition hdim : str := L "ccpp_constant_one:horizontal_dimension".
Definition vdim : str := L "ccpp_constant_one:vertical_layer_dimension".
Definition sc (s l : string) : str * obj := (L s, OV (mkV (L s) (L l) [])).
Definition ex_q : obj := OV (mkV (L "water_vapor") (L "q(:,:,index_of_water_vapor)") [hdim; vdim]).
Definition ex_ps : obj := OD (mkV (L "physics_state") (L "state") []) (OV (mkV (L "surface_pressure") (L "ps") [hdim])).
Definition ex_d : dict :=
  [sc "horizontal_dimension" "ncol"; sc "vertical_layer_dimension" "pver"; sc "index_of_water_vapor" "iqv";
   (L "water_vapor", ex_q); (L "surface_pressure", ex_ps)].
Definition ex_l : dict := [sc "horizontal_loop_begin" "cb"; sc "horizontal_loop_end" "ce"].

Lemma scalar_calc o n full : named o -> parts_of false o = Ok (n, full) -> v_dims (leaf o) = [] -> (forall x, In x full -> existsb (Ascii.eqb ":") x = false) -> scalar o.
Proof.
  intros N P D F. split; auto. intros p full' R. apply refers_complete in R as (n' & _ & P'). rewrite P in P'. apply Ok_eq in P'. injection P' as <- <-.
  apply Forall_forall. intros x I K. specialize (F x I). assert (T : existsb (Ascii.eqb ":") x = true) by (apply existsb_exists; exists ":"%char; split; [exact K|reflexivity]). congruence.
Qed.
Definition all_names (o : obj) : list str :=
  List.concat (map (fun r : res (str * list str) => match r with Ok (_, full) => List.concat (map (split_on ":") full) | Raise _ => [] end) [parts_of true o; parts_of false o]).
Lemma mentions_calc o s : mentions o s -> In s (all_names o).
Proof.
  intros (sect & p & full & dim & ps & R & I & P & Is). apply pieces_split in P. subst ps. apply refers_complete in R as (n & _ & P). unfold all_names. cbn [map List.concat].
  assert (X : In s (List.concat (map (split_on ":") full))) by (apply in_concat; exists (split_on ":" dim); split; auto; now apply in_map).
  destruct sect; rewrite P; apply in_app_iff; [now left|right; rewrite app_nil_r; exact X].
Qed.
Lemma fname_calc s : match s with c :: t => is_alpha c && forallb is_word t | [] => false end = true -> fortran_name s.
Proof.
  destruct s as [|c t]; [discriminate|]. intros H. apply andb_true_iff in H as [A F]. exists c, t. split; auto. split; auto. rewrite forallb_forall in F. auto.
Qed.
Lemma dim_ok_calc dim : forallb (fun p => match p with [] => true | c :: t => (is_alpha c && forallb is_word t) || forallb is_digit p end) (split_on ":" dim) = true -> dim_ok dim.
Proof.
  intros H ps P. apply pieces_split in P. subst ps. rewrite forallb_forall in H. apply Forall_forall. intros p I. specialize (H p I). destruct p as [|c t]; [now left|].
  apply orb_true_iff in H as [H|H]; [right; left; now apply fname_calc|]. right. right. rewrite forallb_forall in H. exists [], (c :: t). split; auto. split; [now left|]. split; [discriminate|]. auto.
Qed.
Ltac listed H := repeat (destruct H as [H|H]; [first [apply pair_equal_spec in H as [<- <-]|idtac]|]); [..|destruct H].
Lemma ex_ref : array_ref (L "q(:,:,index_of_water_vapor)") (L "q") [L ":"; L ":"; L "index_of_water_vapor"].
Proof.
  split; [now apply fname_calc|]. split; [constructor; [right; now left|constructor; [right; now left|constructor; [left; now apply fname_calc|constructor]]]|]. split; [cbn; lia|].
  exists [], [L ":"; L ":"; L "index_of_water_vapor"]. split; [intros c []|]. split; [|reflexivity]. repeat constructor; (exists [], []; rewrite app_nil_r; split; auto; split; intros c []).
Qed.
Lemma ex_named s o : In (s, o) (ex_d ++ ex_l) -> named o.
Proof.
  intros I. cbn [ex_d ex_l app In sc] in I. listed I; try (apply N_plain; now apply fname_calc).
  - eapply N_ref. exact ex_ref.
  - apply N_part; [now apply fname_calc|apply N_plain; now apply fname_calc].
Qed.
Lemma ex_scalar s o : In (s, o) (ex_d ++ ex_l) -> s <> L "water_vapor" -> s <> L "surface_pressure" -> scalar o.
Proof.
  intros I N1 N2. assert (N := ex_named s o I). cbn [ex_d ex_l app In sc] in I. listed I; try (eapply scalar_calc; [exact N|reflexivity|reflexivity|intros x []]); [now elim N1|now elim N2].
Qed.
Lemma ex_tidy : tidy ex_d.
Proof.
  split.
  - repeat constructor; cbn; intros H; repeat (destruct H as [H|H]; [discriminate H|]); exact H.
  - intros s o I. apply (ex_named s). apply in_app_iff. now left.
  - intros s o I. cbn [ex_d In sc] in I. listed I; cbn [leaf v_dims ex_q ex_ps]; repeat constructor; apply dim_ok_calc; reflexivity.
  - intros s o s' o' I M I'. apply (ex_scalar s'); [apply in_app_iff; now left| |].
    + intros ->. apply mentions_calc in M. cbn [ex_d In sc] in I. listed I; vm_compute in M; repeat (destruct M as [M|M]; [discriminate M|]); destruct M.
    + intros ->. apply mentions_calc in M. cbn [ex_d In sc] in I. listed I; vm_compute in M; repeat (destruct M as [M|M]; [discriminate M|]); destruct M.
Qed.
Lemma ex_tidy_l : tidy_loop ex_l.
Proof.
  split; [split|].
  - repeat constructor; cbn; intros H; repeat (destruct H as [H|H]; [discriminate H|]); exact H.
  - intros s o I. apply (ex_named s). apply in_app_iff. now right.
  - intros s o I. cbn [ex_l In sc] in I. listed I; constructor.
  - intros s o s' o' I M I'. apply mentions_calc in M. cbn [ex_l In sc] in I. listed I; vm_compute in M; destruct M.
  - intros s o dim names _ _ I. apply (ex_scalar s); [apply in_app_iff; now right| |]; intros ->; cbn [ex_l In sc] in I; repeat (destruct I as [I|I]; [apply (f_equal fst) in I; discriminate I|]); destruct I.
Qed.

(* ---- C157: array references ---- *)
Theorem C157_array_references : forall v n subs, array_ref (v_local v) n subs ->
  (forall n' full, handle v = Ok (n', full) <-> n' = n /\ filled subs (v_dims v) full) /\
  (handle v = Raise "CCPPError" <-> length (v_dims v) <> length (List.filter (str_eqb (L ":")) subs)) /\
  ((exists r, handle v = Ok r) \/ handle v = Raise "CCPPError").
Proof.
  intros v n subs A. split; [intros; now apply handle_ref|]. split; [|apply handle_err]. split.
  - intros H E. assert (F : exists full, filled subs (v_dims v) full).
    { clear -E. revert E. generalize (v_dims v). induction subs as [|x subs IH]; intros dims E; cbn [List.filter] in E; [destruct dims; [exists []; constructor|discriminate]|].
      destruct (str_eqb (L ":") x) eqn:X.
      - apply str_eqb_eq in X. subst x. destruct dims as [|d dims]; [discriminate|]. destruct (IH dims) as (full & F); [now injection E|]. exists (d :: full). now constructor.
      - destruct (IH dims E) as (full & F). exists (x :: full). constructor; auto. intros ->. discriminate. }
    destruct F as (full & F). assert (X : handle v = Ok (n, full)) by (apply (handle_ref v n subs A); auto). congruence.
  - intros NE. destruct (handle_err v) as [([n' full] & H)|H]; auto. apply (handle_ref v n subs A) in H as [_ F]. apply filled_count in F as [F _]. contradiction.
Qed.
Print Assumptions C157_array_references.
Theorem C157_other_names : forall v, fortran_name (v_local v) -> handle v = Ok (v_local v, v_dims v).
Proof. exact handle_plain. Qed.
Print Assumptions C157_other_names.
Example C157_example :
  handle (leaf ex_q) = Ok (L "q", [hdim; vdim; L "index_of_water_vapor"]) /\
  handle (mkV (L "w") (L "w(:, k)") []) = Raise "CCPPError" /\ handle (mkV (L "w") (L "w(j)") [hdim]) = Raise "CCPPError".
Proof. repeat split; vm_compute; reflexivity. Qed.

(* ---- C158: the arguments of a run phase ---- *)
Theorem C158_run_arguments : forall f d l s o t, tidy d -> tidy_loop l -> In (s, o) d -> call_string f d (Some l) o = Ok t ->
  exists p dims, refers true o p dims /\
    forall m, exists vals, Forall2 (dim_val d (Some l) m) dims vals /\ denotes m (L ", ") t p vals.
Proof. intros f d l s o t T TL I H. exact (call_sound f d (Some l) s o t T TL I H). Qed.
Print Assumptions C158_run_arguments.
(* what can be evaluated can be written *)
Theorem C158_run_complete : forall d l m s o p dims vals, tidy d -> tidy_loop l ->
  (forall dim names s, In (dim, names) loop_dims -> In s names -> In s (map fst l) -> exists n, std_val l m s n) ->
  In (s, o) d -> refers true o p dims -> Forall2 (dim_val d (Some l) m) dims vals ->
  exists n0, forall f, n0 <= f -> exists t, call_string f d (Some l) o = Ok t.
Proof. intros d l m s o p dims vals T TL LO I R F. eapply (call_complete d (Some l)); eauto. split; [apply (t_keys _ (l_tidy _ TL))|exact LO]. Qed.
Print Assumptions C158_run_complete.
Example C158_example : tidy ex_d /\ tidy_loop ex_l /\
  call_string 5 ex_d (Some ex_l) ex_q = Ok (L "q(cb:ce, 1:pver, iqv)") /\
  call_string 5 ex_d (Some ex_l) ex_ps = Ok (L "state%ps(cb:ce)").
Proof. split; [exact ex_tidy|]. split; [exact ex_tidy_l|]. split; vm_compute; reflexivity. Qed.
(* the name of a structure that is an element of an array keeps its standard name *)
Theorem C158_element_of_array_refuted :
  exists d l o s t, In (s, o) d /\ call_string 9 d (Some l) o = Ok t /\ find d (L "index_of_block") = Some (OV (mkV (L "index_of_block") (L "ib") [])) /\
    t = L "state(index_of_block)%ps(cb:ce)".
Proof.
  exists [sc "index_of_block" "ib"; (L "surface_pressure", OD (mkV (L "physics_state") (L "state(index_of_block)") []) (OV (mkV (L "surface_pressure") (L "ps") [hdim])))], ex_l.
  do 3 eexists. split; [right; left; reflexivity|]. split; [vm_compute; reflexivity|]. split; vm_compute; reflexivity.
Qed.
Print Assumptions C158_element_of_array_refuted.

(* ---- C159: the arguments of the other phases ---- *)
Theorem C159_whole_arguments : forall f d s o t, tidy d -> In (s, o) d -> call_string f d None o = Ok t ->
  exists p dims, refers false o p dims /\
    forall m, exists vals, Forall2 (dim_val d None m) dims vals /\ denotes m (L ", ") t p vals.
Proof. intros f d s o t T I H. exact (call_sound f d None s o t T Logic.I I H). Qed.
Print Assumptions C159_whole_arguments.
Theorem C159_whole_complete : forall d m s o p dims vals, tidy d -> In (s, o) d -> refers false o p dims ->
  Forall2 (dim_val d None m) dims vals -> exists n0, forall f, n0 <= f -> exists t, call_string f d None o = Ok t.
Proof. intros d m s o p dims vals T I R F. eapply (call_complete d None); eauto. Qed.
Print Assumptions C159_whole_complete.
Example C159_example : call_string 5 ex_d None ex_q = Ok (L "q(:, :, iqv)") /\ call_string 5 ex_d None ex_ps = Ok (L "state%ps").
Proof. split; vm_compute; reflexivity. Qed.

(* ---- C160: what cannot be written is reported ---- *)
Theorem C160_reported : forall d l s o, acyclic d -> acyclic l ->
  (forall s o, In (s, o) (d ++ l) -> named o) -> In (s, o) d ->
  exists n0, forall f lv, n0 <= f -> lv = None \/ lv = Some l ->
    (exists t, call_string f d lv o = Ok t) \/ call_string f d lv o = Raise "CCPPError".
Proof.
  intros d l s o AC AL NM I. assert (Nd : forall s o, In (s, o) d -> named o) by (intros s' o' I'; apply (NM s'), in_app_iff; now left).
  destruct (call_clean_all d None s o AC Nd Logic.I I) as (n1 & H1).
  destruct (call_clean_all d (Some l) s o AC Nd) as (n2 & H2); auto; [split; auto; intros s' o' I'; apply (NM s'), in_app_iff; now right|].
  exists (n1 + n2). intros f lv LE [->| ->]; [apply H1|apply H2]; lia.
Qed.
Print Assumptions C160_reported.
(* a standard name that is neither a variable nor a number is never written *)
Theorem C160_unknown_names : forall f d lv s o p dims dim ps x, tidy d -> In (s, o) d ->
  refers (match lv with Some _ => true | None => false end) o p dims -> In dim dims -> pieces dim ps -> In x ps ->
  fortran_name x -> x <> L "ccpp_constant_one" -> ~ In x (map fst d) ->
  (forall l names, lv = Some l -> ~ cut l dim names) -> forall t, call_string f d lv o <> Ok t.
Proof.
  intros f d lv s o p dims dim ps x T I R Id P Ix FN NC NI NCU t H. destruct f as [|f]; [discriminate|]. rewrite call_unfold in H.
  apply refers_complete in R as (n & _ & Pa). change (is_some lv) with (match lv with Some _ => true | None => false end) in H. rewrite Pa in H. cbn [bind fst snd] in H.
  destruct dims as [|y dims]; [destruct Id|]. apply b_inv in H as (ts & Mt & _). apply map_res_inv in Mt. destruct (Forall2_in_l _ _ _ Mt dim Id) as (z & _ & D). unfold dim_text in D.
  apply b_inv in D as (r & M & D).
  assert (RN : r = None).
  { destruct lv as [[|e l]|]; try (now apply Ok_eq in M). apply match_inv in M. destruct r as [t'|]; auto. exfalso. destruct M as (names & tt & _ & LD & F). apply (NCU (e :: l) names eq_refl). split; auto.
    intros s' Is'. destruct (Forall2_in_l _ _ _ F s' Is') as (t'' & _ & o' & Fs & _). destruct (loop_name_facts _ _ _ LD Is') as [NC' _].
    destruct (find_cases (e :: l) s') as [[E _]|[_ E]]; [congruence|]. rewrite E in Fs. apply get_in in Fs. apply in_keys. eauto. }
  subst r. apply b_inv in D as (ws & Mw & _). apply map_res_inv in Mw. apply pieces_split in P. subst ps. destruct (Forall2_in_l _ _ _ Mw x Ix) as (w & _ & W). unfold item_text in W.
  destruct (str_eqb x []) eqn:Z; [apply str_eqb_eq in Z; subst; destruct FN as (c & u & K & _); discriminate|]. destruct (find_cases d x) as [[E _]|[_ E]]; [elim (NC E)|]. rewrite E in W.
  apply get_none_iff in NI. rewrite NI, (fname_not_int _ FN) in W. discriminate.
Qed.
Print Assumptions C160_unknown_names.
(* an index that is indexed by itself is not reported as an error of the metadata *)
Theorem C160_cycle_refuted : exists d s o, In (s, o) d /\ named o /\ forall f lv, call_string f d lv o = Raise "RecursionError".
Proof.
  set (o := OV (mkV (L "a_index") (L "a(a_index)") [])). exists [(L "a_index", o)], (L "a_index"), o. split; [now left|].
  assert (A : array_ref (L "a(a_index)") (L "a") [L "a_index"]).
  { split; [now apply fname_calc|]. split; [constructor; [left; now apply fname_calc|constructor]|]. split; [cbn; lia|]. exists [], [L "a_index"]. split; [intros c []|]. split; [|reflexivity]. repeat constructor. exists [], []. split; [reflexivity|]. split; intros c []. }
  split; [eapply N_ref; exact A|]. induction f as [|f IH]; intros lv; [reflexivity|]. rewrite call_unfold.
  assert (P : parts_of (is_some lv) o = Ok (L "a", [L "a_index"])) by (destruct lv; reflexivity). rewrite P. cbn [bind snd fst map_res].
  assert (D : dim_text (call_string f) [(L "a_index", o)] lv (L "a_index") = Raise "RecursionError").
  { unfold dim_text. assert (M : (match lv with Some (e :: l) => dim_match (call_string f) (e :: l) (L "a_index") | _ => Ok None end) = Ok None) by (destruct lv as [[|e l]|]; reflexivity).
    rewrite M. cbn [bind]. change (split_on ":" (L "a_index")) with [L "a_index"]. cbn [map_res]. unfold item_text. change (str_eqb (L "a_index") []) with false. cbn match.
    change (find [(L "a_index", o)] (L "a_index")) with (Some o). cbn match. rewrite IH. reflexivity. }
  rewrite D. reflexivity.
Qed.
Print Assumptions C160_cycle_refuted.
Example C160_example : acyclic ex_d /\ acyclic ex_l /\
  call_string 9 [(L "water_vapor", ex_q)] (Some ex_l) ex_q = Raise "CCPPError".
Proof.
  split; [|split; [|vm_compute; reflexivity]].
  - exists (fun s => if str_eqb s (L "water_vapor") || str_eqb s (L "surface_pressure") then 1 else 0). intros s o s' o' I M I'. apply mentions_calc in M.
    cbn [ex_d In sc] in I. listed I; vm_compute in M; repeat (destruct M as [<-|M]; [vm_compute in I'; repeat (destruct I' as [I'|I']; [apply (f_equal fst) in I'; discriminate I'|]); try (vm_compute; lia)|]); destruct M.
  - exists (fun _ => 0). intros s o s' o' I M I'. apply mentions_calc in M. cbn [ex_l In sc] in I. listed I; vm_compute in M; destruct M.
Qed.

(* ---- C161: dimension strings ---- *)
Theorem C161_dimensions : forall f v ds explicit subst t, named (OV v) -> (forall d, In d ds -> tidy_loop d) ->
  (forall d s o, In d ds -> mentions (OV v) s -> In (s, o) d -> scalar o) ->
  call_dimstring f v (Some ds) explicit subst = Ok t ->
  exists p dims, refers true (OV v) p dims /\
    forall m, exists vals, Forall2 (dim2_val ds explicit subst m) dims vals /\ denotes m (L ",") (p ++ t) p vals.
Proof. intros f v ds explicit subst t N TL BO H. exact (dimstring_sound f v ds explicit subst t N TL BO H). Qed.
Print Assumptions C161_dimensions.
Theorem C161_complete : forall v ds explicit subst m p dims vals, (forall d, In d ds -> tidy_loop d) ->
  (forall d dim names s, In d ds -> In (dim, names) loop_dims -> In s names -> In s (map fst d) -> exists n, std_val d m s n) ->
  refers true (OV v) p dims -> (forall dim ps, In dim dims -> pieces dim ps -> given explicit dim -> ~ In [] ps) ->
  Forall2 (dim2_val ds explicit subst m) dims vals ->
  exists n0, forall f, n0 <= f -> exists t, call_dimstring f v (Some ds) explicit subst = Ok t.
Proof.
  intros v ds explicit subst m p dims vals TL LO R NE F. eapply dimstring_complete; eauto. intros d Id. split; [apply (t_keys _ (l_tidy _ (TL d Id)))|]. intros dim names s. now apply LO.
Qed.
Print Assumptions C161_complete.
Theorem C161_reported : forall v ds explicit subst, named (OV v) ->
  (forall d, In d ds -> acyclic d /\ forall s o, In (s, o) d -> named o) ->
  exists n0, forall f, n0 <= f ->
    (exists t, call_dimstring f v (Some ds) explicit subst = Ok t) \/ call_dimstring f v (Some ds) explicit subst = Raise "CCPPError".
Proof. intros v ds explicit subst N AC. exact (dimstring_clean v ds explicit subst AC N). Qed.
Print Assumptions C161_reported.
(* without dictionaries: one colon per dimension *)
Theorem C161_colons : forall f v p dims explicit subst, refers true (OV v) p dims ->
  call_dimstring f v None explicit subst = Ok (match dims with [] => [] | _ => L "(" ++ join (L ",") (List.repeat (L ":") (length dims)) ++ L ")" end).
Proof.
  intros f v p dims explicit subst R. apply refers_complete in R as (n & _ & P). change (parts_of true (OV v)) with (handle v) in P. unfold call_dimstring. rewrite P. cbn [bind snd].
  assert (X : map (fun _ : str => colon) dims = List.repeat (L ":") (length dims)) by (clear; induction dims as [|x dims IH]; cbn [map List.repeat length]; [reflexivity|now rewrite IH]).
  rewrite X. destruct dims; reflexivity.
Qed.
Print Assumptions C161_colons.
(* a dimension that is a number: call_string writes it, call_dimstring refuses it *)
Theorem C161_number_refuted : exists v, named (OV v) /\ v_dims v = [L "ccpp_constant_one:3"] /\
  (forall ds subst f, 1 <= f -> (forall d, In d ds -> ~ In (L "3") (map fst d)) -> ds <> [] -> call_dimstring f v (Some ds) true subst = Raise "CCPPError") /\
  call_string 3 [] (Some []) (OV v) = Ok (L "rad(1:3)").
Proof.
  exists (mkV (L "radiation_bands") (L "rad") [L "ccpp_constant_one:3"]). split; [apply N_plain; now apply fname_calc|]. split; [reflexivity|]. split; [|vm_compute; reflexivity].
  intros ds subst f LE NI NE. unfold call_dimstring. change (handle (mkV (L "radiation_bands") (L "rad") [L "ccpp_constant_one:3"])) with (Ok (L "rad", [L "ccpp_constant_one:3"])). cbn [bind snd map_res].
  unfold dimension. change (split_on ":" (L "ccpp_constant_one:3")) with [const_one; L "3"]. cbn [negb orb length Nat.eqb].
  assert (M : (if subst then first_match (call_string f) ds (L "ccpp_constant_one:3") else Ok None) = Ok None).
  { destruct subst; [|reflexivity]. clear. induction ds as [|d ds IH]; cbn [first_match]; [reflexivity|]. change (dim_match (call_string f) d (L "ccpp_constant_one:3")) with (@Ok (option str) None). exact IH. }
  rewrite M. cbn [bind map_res]. assert (N3 : dim_name (call_string f) ds (L "3") = Ok None).
  { unfold dim_name. assert (W : first_with ds (L "3") = None). { clear -NI. induction ds as [|d ds IH]; cbn [first_with]; auto. destruct (find_cases d (L "3")) as [[E _]|[_ ->]]; [discriminate E|].
      assert (G : get (L "3") d = None) by (apply get_none_iff; apply NI; now left). rewrite G. apply IH. intros; apply NI; now right. } now rewrite W. }
  assert (N1 : dim_name (call_string f) ds const_one = Ok (Some (L "1"))).
  { destruct ds as [|d ds]; [congruence|]. destruct f as [|f]; [lia|]. reflexivity. }
  rewrite N3, N1. reflexivity.
Qed.
Print Assumptions C161_number_refuted.
Lemma ex_tidy_d : tidy_loop ex_d.
Proof.
  split; [exact ex_tidy|]. intros s o dim names LD Is I. exfalso. cbn [ex_d In sc] in I.
  destruct LD as [H|[H|[H|[]]]]; apply pair_equal_spec in H as [<- <-]; cbn [In] in Is; repeat (destruct Is as [<-|Is]; [repeat (destruct I as [I|I]; [apply (f_equal fst) in I; discriminate I|]); destruct I|]); destruct Is.
Qed.
Example C161_example : (forall d, In d [ex_l; ex_d] -> tidy_loop d) /\
  call_dimstring 5 (leaf ex_q) (Some [ex_l; ex_d]) true true = Ok (L "(cb:ce,1:pver,iqv)") /\
  call_dimstring 5 (leaf ex_q) (Some [ex_l; ex_d]) true false = Ok (L "(1:ncol,1:pver,iqv)") /\
  call_dimstring 5 (leaf ex_q) (Some [ex_l; ex_d]) false true = Ok (L "(:,:,iqv)") /\
  call_dimstring 5 (leaf ex_q) (Some [ex_l]) false true = Raise "CCPPError".
Proof. split; [intros d [<-|[<-|[]]]; [exact ex_tidy_l|exact ex_tidy_d]|]. repeat split; vm_compute; reflexivity. Qed.
