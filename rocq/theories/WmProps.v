(* WmProps.v: theorems about prototype metadata files (C185, C186). *)
From Coq Require Import List Ascii String Bool Lia Arith.
From Verif Require Import PyStr PyNum Regex PhaseModel PhaseSpec CheckModel CheckSpec CheckProofs MetaModel MetaSpec MetaProofs MetaFile MetaFileProps WmModel WmSpec WmProofs.
Import ListNotations.
Open Scope nat_scope. Open Scope list_scope.

(* C185: what is written for tables of good names is read back as these tables, with the
   standard names of the bounds as dimensions; the separator line is blank or a comment. *)
Theorem C185_read_back : forall C skip dmod ddts sep n groups, blank_line sep -> Forall (group_ok skip ddts) groups -> NoDup (map (fun g => fst (fst g)) groups) ->
  exists ts m, groups_read dmod n groups ts m /\
    (takes C ts -> parse_metadata_file C skip dmod ddts (write_metadata_file sep n (List.concat (map snd groups))) = Ok ts).
Proof.
  intros C skip dmod ddts sep n groups SB OK ND. destruct (file_ok C skip dmod ddts sep n groups SB OK ND) as (ts & m & R & F). exists ts, m. split; [exact R|].
  intros T. apply (proj2 (C73_parse C skip dmod ddts _ ts)). now apply F.
Qed.
Print Assumptions C185_read_back.
(* the tables are fixed by what is written *)
Lemma latest_one ns b s t : latest ns b s -> latest ns b t -> s = t.
Proof.
  intros (a & c & -> & N) (a2 & c2 & E & N2). revert a2 N2 E. induction a as [|x a IH]; intros [|y a2] N2 E; cbn [app] in E.
  - apply (f_equal (@hd_error (str * str))) in E. cbn in E. congruence.
  - exfalso. apply (N2 s). left. apply (f_equal (@hd_error (str * str))) in E. cbn in E. congruence.
  - exfalso. apply (N t). left. apply (f_equal (@hd_error (str * str))) in E. cbn in E. congruence.
  - apply (IH (fun u U => N u (or_intror U)) a2 (fun u U => N2 u (or_intror U))). apply (f_equal (@tl (str * str))) in E. exact E.
Qed.
Lemma latest_in ns b s : latest ns b s -> In (b, s) ns.
Proof. intros (a & c & -> & _). apply in_or_app. right. now left. Qed.
Lemma bounds_one ns n bs : forall ss m, bounds_read ns n bs ss m -> forall ss2 m2, bounds_read ns n bs ss2 m2 -> ss = ss2 /\ m = m2.
Proof.
  intros ss m R. induction R as [n|n b s bs ss m NB LA R IH|n b bs ss m F R IH]; intros ss2 m2 R2; inversion R2; subst; auto.
  - match goal with H : bounds_read _ _ bs ?p ?q, H2 : latest ns b ?t |- _ => destruct (IH _ _ H) as [E1 E2] end. subst. split; [|reflexivity]. f_equal. eapply latest_one; eassumption.
  - exfalso. match goal with H : b = [] \/ _ |- _ => destruct H as [->|N]; [congruence|exact (N s (latest_in _ _ _ LA))] end.
  - exfalso. match goal with H : latest ns b ?t |- _ => destruct F as [->|N]; [congruence|exact (N _ (latest_in _ _ _ H))] end.
  - match goal with H : bounds_read _ _ bs ?p ?q |- _ => destruct (IH _ _ H) as [E1 E2] end. subst. auto.
Qed.
Lemma dims_one ns n ds : forall rs m, dims_read ns n ds rs m -> forall rs2 m2, dims_read ns n ds rs2 m2 -> rs = rs2 /\ m = m2.
Proof.
  intros rs m R. induction R as [n|n d ds bs ss k rs m E NB NC B R IH]; intros rs2 m2 R2; [inversion R2; subst; auto|]. inversion R2 as [|? ? ? bs2 ss2 k2 rs3 ? E2 NB2 NC2 B2 R3]; subst.
  assert (bs2 = bs) as -> by (rewrite <- (split_join ":"%char bs NB NC), <- (split_join ":"%char bs2 NB2 NC2); now f_equal).
  destruct (bounds_one _ _ _ _ _ B _ _ B2) as [-> ->]. destruct (IH _ _ R3) as [-> ->]. auto.
Qed.
Lemma vars_one h vs : forall ns n ps m, vars_read h ns n vs ps m -> forall ps2 m2, vars_read h ns n vs ps2 m2 -> ps = ps2 /\ m = m2.
Proof.
  intros ns n ps m R. induction R as [|ns n v vs ds k ps m D R IH]; intros ps2 m2 R2; inversion R2; subst; [auto|].
  match goal with H : dims_read _ _ _ ?d _, H2 : dims_read _ _ _ ?e _ |- _ => destruct (dims_one _ _ _ _ _ H _ _ H2) as [-> ->] end.
  match goal with H : vars_read _ _ _ vs ?p ?q |- _ => destruct (IH _ _ H) as [E1 E2] end. subst. auto.
Qed.
Lemma secs_one dmod ss : forall n rs m, secs_read dmod n ss rs m -> forall rs2 m2, secs_read dmod n ss rs2 m2 -> rs = rs2 /\ m = m2.
Proof.
  intros n rs m R. induction R as [|n s ss k ps rs m D R IH]; intros rs2 m2 R2; inversion R2; subst; [auto|].
  match goal with H : vars_read _ _ _ _ ps _, H2 : vars_read _ _ _ _ ?e _ |- _ => destruct (vars_one _ _ _ _ _ _ D _ _ H2) as [E1 E2]; subst end.
  match goal with H : secs_read _ _ ss ?p ?q |- _ => destruct (IH _ _ H) as [E1 E2] end. subst. auto.
Qed.
Theorem C185_one_reading : forall dmod n groups ts m ts' m', groups_read dmod n groups ts m -> groups_read dmod n groups ts' m' -> ts = ts' /\ m = m'.
Proof.
  intros dmod n groups ts m ts' m' R. revert ts' m'. induction R as [|n name typ g gs k ss ts m D R IH]; intros ts' m' R2; inversion R2; subst; [auto|].
  match goal with H2 : secs_read _ _ _ ?e _ |- _ => destruct (secs_one _ _ _ _ _ D _ _ H2) as [E1 E2]; subst end.
  match goal with H : groups_read _ _ gs ?p ?q |- _ => destruct (IH _ _ H) as [E1 E2] end. subst. auto.
Qed.
Print Assumptions C185_one_reading.

(* ---- a concrete file ---- *)
Definition wm_checker : checker :=
  mkC (fun k => Some (fun v => if str_eqb k (L "dimensions") then Some (PList (match tl (removelast v) with [] => [] | d => split_on "," d end)) else Some (PText v)))
      (fun _ => true) (fun _ _ => true).
Lemma wm_dims : exists f, c_prop wm_checker (L "dimensions") = Some f /\
  forall ds, (forall d, In d ds -> d <> [] /\ Forall fortran_name d) -> f (L "(" ++ join (L ",") (map (join (L ":")) ds) ++ L ")") = Some (PList (map (join (L ":")) ds)).
Proof.
  eexists. split; [reflexivity|]. intros ds G. cbv beta. rewrite str_eqb_refl. rewrite app_assoc. change (L ")") with [")"%char]. rewrite removelast_last.
  change (L "(") with ["("%char]. cbn [tl app]. destruct ds as [|d ds]; [reflexivity|].
  assert (X : split_on "," (join (L ",") (map (join (L ":")) (d :: ds))) = map (join (L ":")) (d :: ds)).
  { apply (split_join ","%char); [discriminate|]. intros p P. apply in_map_iff in P as (y & <- & Y). apply join_no; [discriminate|reflexivity|now apply G]. }
  revert X. generalize (join (L ",") (map (join (L ":")) (d :: ds))). intros [|c r] X; [|now rewrite X].
  exfalso. destruct (G d (or_introl eq_refl)) as [ND FD]. apply (f_equal (@hd_error str)) in X. cbn [hd_error split_on map] in X. destruct d as [|x d]; [congruence|].
  inversion FD as [|? ? (c0 & t & -> & _) FD']; subst. destruct d; cbn in X; discriminate.
Qed.
Lemma props_not_dims h v ds x : ~ In (L "dimensions", PText x) (props_of h v ds).
Proof.
  unfold props_of. intros I. apply in_app_or in I as [I|I]; [repeat (destruct I as [I|I]; [discriminate|]); destruct I|]. apply in_app_or in I as [I|I].
  - destruct (str_eq_dec (w_type v) (w_kind v)); [repeat (destruct I as [I|I]; [discriminate|]); destruct I|]. destruct I as [I|I]; [discriminate|]. destruct (w_kind v); repeat (destruct I as [I|I]; [discriminate|]); destruct I.
  - apply in_app_or in I as [[I|[]]|I]; [discriminate|]. destruct (str_eq_dec h (L "scheme")); repeat (destruct I as [I|I]; [discriminate|]); destruct I.
Qed.
Lemma wm_takes dmod n gs ts m : groups_read dmod n gs ts m -> takes wm_checker ts.
Proof.
  intros R. split; [exact wm_dims|]. intros t s a d b T S D. split; [reflexivity|]. split; [reflexivity|]. intros k x I _ _. eexists. split; [reflexivity|]. cbv beta.
  destruct (str_eqb k (L "dimensions")) eqn:E; [|reflexivity]. exfalso. apply str_eqb_eq in E. subst k.
  assert (VP : forall h ns n vs ps m, vars_read h ns n vs ps m -> forall p, In p ps -> ~ In (L "dimensions", PText x) p).
  { clear. intros h ns n vs ps m R. induction R as [|? ? ? ? ? ? ? ? D R IH]; intros p P; [destruct P|]. destruct P as [<-|P]; [apply props_not_dims|auto]. }
  assert (SP : forall n ss rs m, secs_read dmod n ss rs m -> forall s p, In s rs -> In p (s_vars s) -> ~ In (L "dimensions", PText x) p).
  { clear - VP. intros n ss rs m R. induction R as [|? ? ? ? ? ? ? V R IH]; intros s0 p S P; [destruct S|]. destruct S as [<-|S]; [exact (VP _ _ _ _ _ _ V p P)|exact (IH s0 p S P)]. }
  revert I. assert (P : In d (s_vars s)) by (rewrite D; apply in_or_app; right; now left).
  clear D. induction R as [|? ? ? ? ? ? ? ? ? V R IH]; [destruct T|]. destruct T as [<-|T]; [exact (SP _ _ _ _ V s d S P)|auto].
Qed.
Definition wm_var (l s t k : string) (ds : list string) : wvar := mkWv (L l) (L s) [] (L t) (L k) (map L ds) (L "in").
Definition wm_groups : list (str * str * list wtab) :=
  [(L "rad", L "scheme", [mkWt (L "rad") (L "scheme") [mkWs (L "rad_run") (L "scheme")
      [wm_var "ncol" "enter_standard_name_1" "integer" "" []; wm_var "q" "enter_standard_name_2" "real" "kind_phys" ["1:ncol"; "nz"]; wm_var "e" "enter_standard_name_3" "character" "len=*" []]];
     mkWt (L "rad") (L "scheme") [mkWs (L "rad_init") (L "scheme") [wm_var "st" "enter_standard_name_4" "my_t" "my_t" [":"]]]]);
   (L "my_mod", L "module", [mkWt (L "my_mod") (L "module") [mkWs (L "my_mod") (L "module") [wm_var "w" "enter_standard_name_5" "real" "" ["1:ncol"]]]])].
Ltac fname := eexists _, _; split; [reflexivity|]; split; [reflexivity|]; intros ?d I; cbn in I; repeat (destruct I as [<-|I]; [reflexivity|]); destruct I.
Ltac wtext := split; [discriminate|split; [reflexivity|intros X; cbn in X; repeat (destruct X as [X|X]; [discriminate|]); destruct X]].
Lemma my_t_text : ~ type_text (L "my_t").
Proof.
  intros [I|(w & r & W & E)]; [cbn in I; repeat (destruct I as [I|I]; [discriminate|]); destruct I|]. cbn in E. discriminate.
Qed.
Ltac wvar_ok :=
  refine (conj _ (conj _ (conj _ (conj _ (conj _ _))))); [cbn; fname|cbn; fname|now left
  |intros E; first [exfalso; cbn in E; discriminate|split; [cbn; wtext|split; [exact my_t_text|now left]]]
  |intros N; first [exfalso; now apply N|split; [cbn; wtext|split; [left; cbn; tauto|first [now left|right; cbn; wtext]]]]
  |intros _; cbn; wtext].
Lemma wm_ok : Forall (group_ok true []) wm_groups.
Proof.
  constructor; [|constructor; [|constructor]].
  - split; [wtext|]. split; [cbn; tauto|]. split; [discriminate|]. split; [|intros N; now contradiction N].
    intros t [<-|[<-|[]]]; (split; [reflexivity|]; split; [reflexivity|]; split; [discriminate|]); intros s [<-|[]]; (split; [cbn; wtext|]; split; [reflexivity|]; split;
      [left; split; [reflexivity|]; left; cbn|]).
    + exists (L "run"), (L "run"). split; [reflexivity|]. split; [split; [fname|eexists; split; [right; right; right; left; reflexivity|now left]]|intros [[X|X] _]; discriminate].
    + cbn [ws_vars In]. intros v [<-|[<-|[<-|[]]]]; wvar_ok.
    + exists (L "init"), (L "initialize"). split; [reflexivity|]. split; [split; [fname|eexists; split; [right; left; reflexivity|now left]]|].
      intros [_ (g & u & _ & E & _)]. destruct g as [|c1 [|c2 [|c3 [|c4 g]]]]; cbn in E; discriminate.
    + cbn [ws_vars In]. intros v [<-|[]]; wvar_ok.
  - split; [wtext|]. split; [cbn; tauto|]. split; [discriminate|]. split; [|reflexivity].
    intros t [<-|[]]. split; [reflexivity|]. split; [reflexivity|]. split; [discriminate|]. intros s [<-|[]]. split; [cbn; wtext|]. split; [reflexivity|]. split; [right; split; [discriminate|reflexivity]|].
    cbn [ws_vars In]. intros v [<-|[]]; wvar_ok.
Qed.
Example C185_ok : Forall (group_ok true []) wm_groups /\ NoDup (map (fun g => fst (fst g)) wm_groups) /\
  (exists ts m, groups_read (L "f") 5 wm_groups ts m /\ takes wm_checker ts /\
     parse_metadata_file wm_checker true (L "f") [] (write_metadata_file (L "########") 5 (List.concat (map snd wm_groups))) = Ok ts /\
     map t_name ts = [Some (L "rad"); Some (L "my_mod")] /\ map (fun t => length (t_sections t)) ts = [2; 1]).
Proof.
  split; [exact wm_ok|]. assert (ND : NoDup (map (fun g : str * str * list wtab => fst (fst g)) wm_groups)) by (repeat constructor; cbn; intuition discriminate). split; [exact ND|].
  destruct (C185_read_back wm_checker true (L "f") [] (L "########") 5 wm_groups) as (ts & m & R & P); [right; exists [], "#"%char, (L "#######"); split; [reflexivity|split; [easy|now left]]|exact wm_ok|exact ND|].
  assert (T := wm_takes _ _ _ _ _ R). exists ts, m. split; [exact R|]. split; [exact T|]. split; [exact (P T)|]. specialize (P T).
  assert (V := f_equal (fun r => match r with Ok l => Some (map t_name l, map (fun t => length (t_sections t)) l) | Raise _ => None end) P). cbv beta iota in V. vm_compute in V.
  split; [apply (f_equal (fun o => match o with Some x => fst x | None => [] end)) in V; now symmetry|apply (f_equal (fun o => match o with Some x => snd x | None => [] end)) in V; now symmetry].
Qed.
Example C185_lines : write_metadata_file (L "########") 5 (List.concat (map snd wm_groups)) = map L
  ["[ccpp-table-properties]"; "  name = rad"; "  type = scheme"; "########"; "[ccpp-arg-table]"; "  name  = rad_run"; "  type  = scheme";
   "[ ncol ]"; "  standard_name = enter_standard_name_1"; "  units = enter_units"; "  type = integer"; "  dimensions = ()"; "  intent = in";
   "[ q ]"; "  standard_name = enter_standard_name_2"; "  units = enter_units"; "  type = real | kind = kind_phys"; "  dimensions = (ccpp_constant_one:enter_standard_name_1,enter_standard_name_6)"; "  intent = in";
   "[ e ]"; "  standard_name = enter_standard_name_3"; "  units = enter_units"; "  type = character | kind = len=*"; "  dimensions = ()"; "  intent = in";
   "########"; "[ccpp-arg-table]"; "  name  = rad_init"; "  type  = scheme";
   "[ st ]"; "  standard_name = enter_standard_name_4"; "  units = enter_units"; "  type = my_t"; "  dimensions = (enter_standard_name_7:enter_standard_name_8)"; "  intent = in";
   "########"; "[ccpp-table-properties]"; "  name = my_mod"; "  type = module"; "########"; "[ccpp-arg-table]"; "  name  = my_mod"; "  type  = module";
   "[ w ]"; "  standard_name = enter_standard_name_5"; "  units = enter_units"; "  type = real"; "  dimensions = (ccpp_constant_one:enter_standard_name_9)"]%string.
Proof. vm_compute. reflexivity. Qed.
(* Finding: routines of two schemes that alternate in the source give a file that is refused:
   the properties of the first scheme are written twice. *)
Definition wm_tab (s r : string) : wtab := mkWt (L s) (L "scheme") [mkWs (L r) (L "scheme") []].
Theorem C185_finding_alternating : exists a b c, wt_name a <> wt_name b /\ wt_name a = wt_name c /\
  (exists ts, parse_metadata_file wm_checker true (L "f") [] (write_metadata_file (L "##") 0 [a; c; b]) = Ok ts /\ length ts = 2) /\
  exists e, parse_metadata_file wm_checker true (L "f") [] (write_metadata_file (L "##") 0 [a; b; c]) = Raise e.
Proof.
  exists (wm_tab "rad" "rad_init"), (wm_tab "pbl" "pbl_init"), (wm_tab "rad" "rad_run"). split; [discriminate|]. split; [reflexivity|].
  split; [eexists; split; vm_compute; reflexivity|]. eexists. vm_compute. reflexivity.
Qed.
Print Assumptions C185_finding_alternating.

(* C186: the bounds without a name get placeholders, one after the other; no two get the
   same, and none that was used before. *)
Definition unnamed (ns : list (str * str)) (b : str) : Prop := b = [] \/ forall s, ~ In (b, s) ns.
(* [os] are the elements of [ys] at the places where P holds of the element of [xs] *)
Inductive at_places (P : str -> Prop) : list str -> list str -> list str -> Prop :=
| AP_nil : at_places P [] [] []
| AP_in x y xs ys os : P x -> at_places P xs ys os -> at_places P (x :: xs) (y :: ys) (y :: os)
| AP_out x y xs ys os : ~ P x -> at_places P xs ys os -> at_places P (x :: xs) (y :: ys) os.
Lemma at_app P x1 y1 o1 x2 y2 o2 : at_places P x1 y1 o1 -> at_places P x2 y2 o2 -> at_places P (x1 ++ x2) (y1 ++ y2) (o1 ++ o2).
Proof. intros A B. induction A; cbn [app]; [exact B|now apply AP_in|now apply AP_out]. Qed.
Lemma bounds_numbers ns n bs ss m : bounds_read ns n bs ss m -> n <= m /\ at_places (unnamed ns) bs ss (map placeholder (seq (n + 1) (m - n))).
Proof.
  intros R. induction R as [n|n b s bs ss m NB LA R [IH1 IH2]|n b bs ss m F R [IH1 IH2]].
  - split; [lia|]. rewrite Nat.sub_diag. constructor.
  - split; [exact IH1|]. apply AP_out; [|exact IH2]. intros [->|N]; [congruence|]. exact (N s (latest_in _ _ _ LA)).
  - split; [lia|]. replace (m - n) with (Datatypes.S (m - (n + 1))) by lia. cbn [seq map]. apply AP_in; [exact F|]. replace (Datatypes.S (n + 1)) with (n + 1 + 1) by lia. exact IH2.
Qed.
Lemma placeholder_inj i j : placeholder i = placeholder j -> i = j.
Proof. unfold placeholder. intros E. apply app_inv_head in E. now apply str_of_nat_inj. Qed.
Lemma seq_split a n m k : a <= n -> n <= m -> k = m - a -> seq (a + 1) k = seq (a + 1) (n - a) ++ seq (n + 1) (m - n).
Proof. intros A B ->. replace (m - a) with ((n - a) + (m - n)) by lia. rewrite seq_app. do 2 f_equal. lia. Qed.
Theorem C186_numbers : forall ns n ds out m, (forall b s, In (b, s) ns -> fortran_name s) -> dims ns n ds = (out, m) ->
  exists rs, out = map (join (L ":")) rs /\ n <= m /\ NoDup (map placeholder (seq (n + 1) (m - n))) /\
    at_places (unnamed ns) (List.concat (map (split_on ":") ds)) (List.concat rs) (map placeholder (seq (n + 1) (m - n))).
Proof.
  intros ns n ds out m SO D. destruct (dims_ok ns SO ds n out m D) as (rs & R & E & _). exists rs. split; [exact E|].
  assert (G : n <= m /\ at_places (unnamed ns) (List.concat (map (split_on ":") ds)) (List.concat rs) (map placeholder (seq (n + 1) (m - n)))).
  { clear D E. induction R as [n|n d ds bs ss k rs m E NB NC B R [IH1 IH2]]; [split; [lia|]; rewrite Nat.sub_diag; constructor|].
    destruct (bounds_numbers _ _ _ _ _ B) as [B1 B2]. split; [lia|]. rewrite (seq_split n k m (m - n)) by lia. rewrite map_app. cbn [map List.concat].
    apply at_app; [|exact IH2]. rewrite E. change (L ":") with [":"%char]. rewrite (split_join ":"%char bs NB NC). exact B2. }
  destruct G as [G1 G2]. split; [exact G1|]. split; [|exact G2]. generalize (seq_NoDup (m - n) (n + 1)). generalize (seq (n + 1) (m - n)).
  induction l as [|i l IH]; intros ND; [constructor|]. inversion ND; subst. cbn [map]. constructor; [|auto]. intros I. apply in_map_iff in I as (j & E2 & J). apply placeholder_inj in E2. now subst j.
Qed.
Print Assumptions C186_numbers.
Example C186_numbers_ok : dims [(L "n", L "count")] 3 [L "1:n"; L "n:k"; L ":"] = (map L ["enter_standard_name_4:count"; "count:enter_standard_name_5"; "enter_standard_name_6:enter_standard_name_7"]%string, 7).
Proof. vm_compute. reflexivity. Qed.
(* a bound with a name gets the standard name that was given last; the bound 1 of a section without a variable of this name is the constant one *)
Theorem C186_named : forall ns n b s bs, b <> [] -> latest ns b s -> exists ss m, bounds ns n (b :: bs) = (s :: ss, m).
Proof.
  intros ns n b s bs NB LA. cbn [bounds]. assert (E : bound ns n b = (s, n)).
  { unfold bound. destruct b as [|c b]; [congruence|]. cbn [nil_str]. destruct (known ns (c :: b)) as [t|] eqn:K; [|exfalso; exact (known_none _ _ K s (latest_in _ _ _ LA))].
    apply known_latest in K. now rewrite (latest_one ns (c :: b) s t LA K). }
  rewrite E. destruct (bounds ns n bs) as [l m]. eauto.
Qed.
Print Assumptions C186_named.

(* over the whole file: [os] are the standard names written for the unnamed bounds, in the
   order of the file *)
Inductive new_in_vars (htype : str) : list (str * str) -> list wvar -> list props -> list str -> Prop :=
| NV_nil ns : new_in_vars htype ns [] [] []
| NV_cons ns v vs ds ps o os : at_places (unnamed ((w_local v, w_std v) :: ns)) (List.concat (map (split_on ":") (w_dims v))) (List.concat ds) o ->
    new_in_vars htype ((w_local v, w_std v) :: ns) vs ps os -> new_in_vars htype ns (v :: vs) (props_of htype v ds :: ps) (o ++ os).
Inductive new_in_secs : list wsec -> list section -> list str -> Prop :=
| NS_nil : new_in_secs [] [] []
| NS_cons s ss r rs o os : new_in_vars (ws_type s) [(L "1", L "ccpp_constant_one")] (ws_vars s) (s_vars r) o -> new_in_secs ss rs os -> new_in_secs (s :: ss) (r :: rs) (o ++ os).
Lemma seq_cut n k m : n <= k -> k <= m -> map placeholder (seq (n + 1) (m - n)) = map placeholder (seq (n + 1) (k - n)) ++ map placeholder (seq (k + 1) (m - k)).
Proof. intros A B. rewrite <- map_app. f_equal. now apply seq_split. Qed.
Lemma dims_numbers ns n ds rs m : dims_read ns n ds rs m -> n <= m /\ at_places (unnamed ns) (List.concat (map (split_on ":") ds)) (List.concat rs) (map placeholder (seq (n + 1) (m - n))).
Proof.
  intros R. induction R as [n|n d ds bs ss k rs m E NB NC B R [IH1 IH2]]; [split; [lia|]; rewrite Nat.sub_diag; constructor|].
  destruct (bounds_numbers _ _ _ _ _ B) as [B1 B2]. split; [lia|]. rewrite (seq_cut n k m) by lia. cbn [map List.concat].
  apply at_app; [|exact IH2]. rewrite E. change (L ":") with [":"%char]. rewrite (split_join ":"%char bs NB NC). exact B2.
Qed.
Lemma vars_numbers h ns n vs ps m : vars_read h ns n vs ps m -> n <= m /\ new_in_vars h ns vs ps (map placeholder (seq (n + 1) (m - n))).
Proof.
  intros R. induction R as [ns n|ns n v vs ds k ps m D R [IH1 IH2]]; [split; [lia|]; rewrite Nat.sub_diag; constructor|].
  destruct (dims_numbers _ _ _ _ _ D) as [D1 D2]. split; [lia|]. rewrite (seq_cut n k m) by lia. now constructor.
Qed.
Lemma secs_numbers dmod n ss rs m : secs_read dmod n ss rs m -> n <= m /\ new_in_secs ss rs (map placeholder (seq (n + 1) (m - n))).
Proof.
  intros R. induction R as [n|n s ss k ps rs m D R [IH1 IH2]]; [split; [lia|]; rewrite Nat.sub_diag; constructor|].
  destruct (vars_numbers _ _ _ _ _ _ D) as [D1 D2]. split; [lia|]. rewrite (seq_cut n k m) by lia. constructor; [exact D2|exact IH2].
Qed.
Lemma new_secs_app a ra oa b rb ob : new_in_secs a ra oa -> new_in_secs b rb ob -> new_in_secs (a ++ b) (ra ++ rb) (oa ++ ob).
Proof. intros A B. induction A; cbn [app]; [exact B|]. rewrite <- app_assoc. now constructor. Qed.
Theorem C186_whole_file : forall dmod n groups ts m, groups_read dmod n groups ts m ->
  n <= m /\ exists os, new_in_secs (List.concat (map (fun g => List.concat (map wt_secs (snd g))) groups)) (List.concat (map t_sections ts)) os /\
    os = map placeholder (seq (n + 1) (m - n)) /\ NoDup os /\ forall k, k <= n -> ~ In (placeholder k) os.
Proof.
  intros dmod n groups ts m R. assert (G : n <= m /\ new_in_secs (List.concat (map (fun g => List.concat (map wt_secs (snd g))) groups)) (List.concat (map t_sections ts)) (map placeholder (seq (n + 1) (m - n)))).
  { induction R as [n|n name typ g gs k ss ts m D R [IH1 IH2]]; [split; [lia|]; rewrite Nat.sub_diag; constructor|].
    destruct (secs_numbers _ _ _ _ _ D) as [D1 D2]. split; [lia|]. rewrite (seq_cut n k m) by lia. cbn [map List.concat snd t_sections]. now apply new_secs_app. }
  destruct G as [G1 G2]. split; [exact G1|]. eexists. split; [exact G2|]. split; [reflexivity|]. split.
  - generalize (seq_NoDup (m - n) (n + 1)). generalize (seq (n + 1) (m - n)).
    induction l as [|i l IH]; intros ND; [constructor|]. inversion ND; subst. cbn [map]. constructor; [|auto]. intros I. apply in_map_iff in I as (j & E2 & J). apply placeholder_inj in E2. now subst j.
  - intros k K I. apply in_map_iff in I as (j & E2 & J). apply placeholder_inj in E2. subst j. apply in_seq in J. lia.
Qed.
Print Assumptions C186_whole_file.
Example C186_whole_file_ok : exists ts m, groups_read (L "f") 5 wm_groups ts m.
Proof.
  destruct (C185_read_back wm_checker true (L "f") [] (L "########") 5 wm_groups) as (ts & m & R & P); [right; exists [], "#"%char, (L "#######"); split; [reflexivity|split; [easy|now left]]|exact wm_ok|repeat constructor; cbn; intuition discriminate|].
  eauto.
Qed.
