(* C166-C169: the sections a ccpp_prebuild cap passes and the debug check of their sizes. *)
From Coq Require Import List Ascii String ZArith Bool Lia.
From Verif Require Import PyStr Base PhaseSpec CheckSpec CheckProofs ReqModel ReqProofs SelModel ParModel ParProofs ArModel ArProofs SzModel SzSpec SzProofs.
Import ListNotations.
Open Scope nat_scope. Open Scope list_scope.

(* a host: horizontal chunks of one array, and a blocked one *)
Definition mk (s n : string) (dims : list str) := mkPV (L s) (L n) (match dims with [] => L "integer" | _ => L "real" end) [] dims [] (L "T") [] (L "MODULE_host").
Definition ex_t := mk "temperature" "t" [L "ccpp_constant_one:horizontal_dimension"; L "ccpp_constant_one:vertical_layer_dimension"].
Definition ex_q := mk "humidity" "blk(nb)%q" [L "ccpp_constant_one:horizontal_loop_extent"; L "ccpp_constant_one:vertical_layer_dimension"].
Definition ex_defs : pdefs := map (fun v => (pv_std v, v)) [mk "horizontal_loop_begin" "ib" []; mk "horizontal_loop_end" "ie" [];
  mk "horizontal_loop_extent" "im" []; mk "ccpp_constant_one" "one" []; mk "vertical_layer_dimension" "nlev" []; mk "horizontal_dimension" "ncol" []; ex_t; ex_q].
(* the arguments of a scheme *)
Definition ar_t := mk "temperature" "t" [L "ccpp_constant_one:Horizontal_Loop_Extent"; L "ccpp_constant_one:vertical_layer_dimension"].
Definition ar_q := mk "humidity" "q" [L "ccpp_constant_one:horizontal_loop_extent"; L "2:vertical_layer_dimension"].
Definition ex_host : host := fun n => (if str_eqb n (L "ib") then 11 else if str_eqb n (L "ie") then 20 else if str_eqb n (L "im") then 10
  else if str_eqb n (L "one") then 1 else if str_eqb n (L "nlev") then 4 else 100)%Z.

Lemma obj_of (t : str) : py_int t = None -> t <> [] -> existsb (fun c => has_char c (L ":,+-*")) t = false -> object_text t.
Proof.
  intros P N X. repeat split; auto. intros c C J. apply has_char_in in J.
  assert (Y : existsb (fun c => has_char c (L ":,+-*")) t = true) by (apply existsb_exists; eauto). congruence.
Qed.
Definition objb (t : str) : bool := match py_int t with Some _ => false | None => nonempty t && negb (existsb (fun c => has_char c (L ":,+-*")) t) end.
Lemma objb_ok t : objb t = true -> object_text t.
Proof.
  unfold objb. destruct (py_int t) eqn:P; [discriminate|]. intros H. apply andb_prop in H as [N X]. apply obj_of; auto; [now destruct t|].
  now destruct (existsb (fun c => has_char c (L ":,+-*")) t).
Qed.
Lemma ex_good v : v = ar_t \/ v = ar_q -> good ex_defs v.
Proof.
  intros V. assert (D : forall s x, In (s, x) ex_defs -> pv_dims x = [] -> object_text (pv_local x)).
  { intros s x I _. apply objb_ok. assert (F : forallb (fun p => objb (pv_local (snd p))) ex_defs = true) by reflexivity.
    rewrite forallb_forall in F. exact (F _ I). }
  split.
  - assert (N : forall l : list str, (fix nd l := match l with [] => true | x :: r => negb (mem x r) && nd r end) l = true -> NoDup l).
    { induction l as [|x r IH]; [constructor|]. intros H. apply andb_prop in H as [A B]. constructor; [|auto]. apply mem_not. now destruct (mem x r). }
    apply N. reflexivity.
  - intros d I. destruct V as [-> | ->]; cbn [pv_dims ar_t ar_q mk] in I; destruct I as [<-|[<-|[]]]; eexists _, _; apply bounds_split; reflexivity.
  - intros s x I _. left. apply objb_ok. assert (F : forallb (fun p => objb (pv_local (snd p))) ex_defs = true) by reflexivity.
    rewrite forallb_forall in F. exact (F _ I).
  - assert (X : forall d lo hi, In d (pv_dims v) -> split_on ":" d = [lo; hi] -> forall b, b = lower lo \/ b = lower hi -> py_int b <> None -> int_literal b).
    { intros d lo hi I Q b B P.
      assert (F : forall d, In d [L "ccpp_constant_one:Horizontal_Loop_Extent"; L "ccpp_constant_one:vertical_layer_dimension"; L "ccpp_constant_one:horizontal_loop_extent"; L "2:vertical_layer_dimension"] ->
        Forall (fun y => py_int (lower y) <> None -> int_literal (lower y)) (split_on ":" d)).
      { intros e J. cbn [In] in J.
        assert (T : int_literal (L "2")) by (exists [], (L "2"); repeat split; [now left|discriminate|intros c [<-|[]]; reflexivity]).
        destruct J as [<-|[<-|[<-|[<-|[]]]]]; vm_compute (split_on _ _); repeat apply Forall_cons; try apply Forall_nil; intros K; try (exfalso; apply K; reflexivity); exact T. }
      assert (J : In d [L "ccpp_constant_one:Horizontal_Loop_Extent"; L "ccpp_constant_one:vertical_layer_dimension"; L "ccpp_constant_one:horizontal_loop_extent"; L "2:vertical_layer_dimension"]).
      { destruct V as [-> | ->]; cbn [pv_dims ar_t ar_q mk] in I; destruct I as [<-|[<-|[]]]; cbn; auto. }
      apply F in J. rewrite Q in J. inversion J as [|? ? J1 J']; subst. inversion J' as [|? ? J2 _]; subst. destruct B as [-> | ->]; auto. }
    intros d lo hi I B. apply (X d lo hi I). now apply bounds_split.
  - intros h I (W & X). apply has_dim_mem in W as (d & J & M). apply has_dim_mem in X as (e & K & O).
    assert (F : forallb (fun p : str * pvar => negb (existsb (fun d => mem (L "horizontal_dimension") (map lower (split_on ":" d))) (pv_dims (snd p)) && existsb (fun d => mem (L "horizontal_loop_extent") (map lower (split_on ":" d))) (pv_dims (snd p)))) ex_defs = true) by (vm_compute; reflexivity).
    rewrite forallb_forall in F. specialize (F _ I). cbn [snd] in F.
    rewrite (proj2 (existsb_exists _ _) (ex_intro _ d (conj J M))), (proj2 (existsb_exists _ _) (ex_intro _ e (conj K O))) in F. discriminate.
Qed.

(* C166: a cap passes the section the metadata of the scheme ask for: chunk, block or plain bounds *)
Theorem C166_section E run defs v l : good defs v -> dim_texts run defs v = Ok l -> pv_type v <> L "character" ->
  Forall2 (fun d p => exists a b, asked E run defs (pv_std v) d a b /\
    forall lo up, selects E lo up (snd p) (Sec a b) \/ (a = b /\ selects E lo up (snd p) (Elem a))) (pv_dims v) l.
Proof.
  intros G H T. apply map_r_inv in H.
  assert (K : forall ds m, Forall2 (fun x y => dim_text run defs v x = Ok y) ds m -> (forall d, In d ds -> In d (pv_dims v)) ->
    Forall2 (fun d p => exists a b, asked E run defs (pv_std v) d a b /\
      forall lo up, selects E lo up (snd p) (Sec a b) \/ (a = b /\ selects E lo up (snd p) (Elem a))) ds m).
  { clear H. induction 1 as [|d p ds m Q F IH]; intros X; constructor; [|apply IH; intros e I; apply X; now right].
    destruct (dim_num E _ _ _ _ _ G (X _ (or_introl eq_refl)) Q) as (s & t & a & b & A & N & M & _ & [Z|[Z _]] & _); [|contradiction].
    exists a, b. split; auto. intros lo up. rewrite Z. now apply explicit_selects. }
  now apply K.
Qed.
Print Assumptions C166_section.
Example C166_example : good ex_defs ar_t /\ good ex_defs ar_q /\
  dim_texts true ex_defs ar_t = Ok [(L "(ie-ib+1)", L "ib:ie"); (L "(nlev-one+1)", L "one:nlev")] /\
  dim_texts true ex_defs ar_q = Ok [(L "(im-one+1)", L "one:im"); (L "(nlev-2+1)", L "2:nlev")].
Proof. split; [apply ex_good; auto|]. split; [apply ex_good; auto|]. split; vm_compute; reflexivity. Qed.

Lemma F2_mono {A B} (P Q : A -> B -> Prop) l m : (forall x y, P x y -> Q x y) -> Forall2 P l m -> Forall2 Q l m.
Proof. induction 2; constructor; auto. Qed.
(* if the loop bounds of the host fit together, the scheme gets as many columns as it is told *)
Theorem C166_columns E defs v l n : good defs v -> dim_texts true defs v = Ok l -> pv_type v <> L "character" ->
  bound_value E defs (L "horizontal_loop_extent") n -> (0 <= n)%Z ->
  (forall b e, bound_value E defs (L "horizontal_loop_begin") b -> bound_value E defs (L "horizontal_loop_end") e -> (e - b + 1)%Z = n) ->
  (forall o, bound_value E defs (L "ccpp_constant_one") o -> o = 1%Z) ->
  (forall m, bound_value E defs (L "horizontal_loop_extent") m -> m = n) ->
  Forall2 (fun d p => forall lo hi, bounds d lo hi -> lower hi = L "horizontal_loop_extent" ->
    forall l u, exists s, selects E l u (snd p) s /\ extent s = n) (pv_dims v) l.
Proof.
  intros G H T V P C O U. assert (F := C166_section E _ _ _ _ G H T).
  eapply F2_mono; [|exact F]. cbn beta. intros d p (a & b & A & Sel) lo hi B X l0 u.
  assert (Z : (b - a + 1)%Z = n).
  { inversion A as [lo' hi' h x _ B' X' I W J VA VB|lo' hi' h _ B' X' I W VA VB|lo' hi' B' R VA VB].
    - apply C; auto.
    - apply O in VA. apply U in VB. lia.
    - apply bounds_split in B. apply bounds_split in B'. rewrite B in B'. injection B' as <- <-. destruct R as [R|R]; [discriminate|contradiction]. }
  destruct (Sel l0 u) as [Q|[-> Q]]; eexists; (split; [exact Q|]); cbn; lia.
Qed.
Print Assumptions C166_columns.
Example C166_columns_example : bound_value ex_host ex_defs (L "horizontal_loop_extent") 10%Z /\ (forall b e, bound_value ex_host ex_defs (L "horizontal_loop_begin") b -> bound_value ex_host ex_defs (L "horizontal_loop_end") e -> (e - b + 1)%Z = 10%Z).
Proof.
  assert (X : forall s v n, In (s, v) ex_defs -> py_int s = None -> bound_value ex_host ex_defs s n -> n = ex_host (pv_local v)).
  { intros s v n I P B. inversion B as [? ? Q|? w ? _ J N]; subst; [congruence|].
    assert (w = v). { assert (A := in_assoc _ _ _ (g_once _ _ (ex_good ar_t (or_introl eq_refl))) I). assert (A' := in_assoc _ _ _ (g_once _ _ (ex_good ar_t (or_introl eq_refl))) J). congruence. }
    subst w. assert (O : object_text (pv_local v)).
    { apply objb_ok. assert (F : forallb (fun p => objb (pv_local (snd p))) ex_defs = true) by reflexivity. rewrite forallb_forall in F. exact (F _ I). }
    inversion N as [t m IL Q|t _]; subst; auto. destruct O as (O & _). congruence. }
  split.
  - apply (B_var ex_host ex_defs (L "horizontal_loop_extent") (mk "horizontal_loop_extent" "im" []) 10%Z); [reflexivity|right; right; now left|].
    apply (N_obj ex_host (L "im")). now apply objb_ok.
  - intros b e VB VE. rewrite (X _ (mk "horizontal_loop_begin" "ib" []) b) by (auto; now left).
    rewrite (X _ (mk "horizontal_loop_end" "ie" []) e) by (auto; right; now left). reflexivity.
Qed.

(* the sections stand where the host's local name has colons; its indices stay; there must be as many colons as dimensions *)
Lemma dim_chars run defs v l : good defs v -> dim_texts run defs v = Ok l -> Forall (fun t => t <> [] /\ ~ In ","%char t) (map snd l).
Proof.
  intros G H. apply map_r_inv in H. apply Forall_forall. intros t I. apply in_map_iff in I as (p & <- & I).
  assert (Q : exists d, In d (pv_dims v) /\ dim_text run defs v d = Ok p).
  { clear G. induction H as [|d y ds m E _ IH]; [destruct I|]. destruct I as [->|I]; [exists d; split; [now left|exact E]|].
    destruct (IH I) as (e & J & K). exists e. split; [now right|exact K]. }
  destruct Q as (d & D & Q). destruct (dim_num (fun _ => 0%Z) _ _ _ _ _ G D Q) as (s & u & a & b & _ & N & M & _ & [Z|[_ Z]] & _); rewrite Z.
  - apply number_text in N as (N1 & _ & N3). apply number_text in M as (M1 & _ & M3). unfold explicit_text. destruct (str_eqb s u); [auto|]. split.
    + intros X. apply app_eq_nil in X as [X _]. auto.
    + intros X. apply in_app_or in X as [X|X]; [auto|]. apply in_app_or in X as [[X|[]]|X]; [discriminate|auto].
  - split; [discriminate|]. intros [X|[]]. discriminate.
Qed.
Lemma placed_chars target subs m : placed target subs m -> Forall (fun t => t <> [] /\ ~ In ","%char t) target -> Forall (fun t => t <> [] /\ ~ In ","%char t) subs ->
  Forall (fun t => t <> [] /\ ~ In ","%char t) m.
Proof.
  induction 1; intros A B; auto.
  - inversion A; inversion B; subst. constructor; auto.
  - inversion A; subst. constructor; auto.
Qed.
Theorem C166_placed run defs v target text ds al size : good defs v -> Forall (fun t => t <> [] /\ ~ In ","%char t) target ->
  pv_dims v <> [] -> strings run defs v target text = Ok (ds, al, size) ->
  exists l m, dim_texts run defs v = Ok l /\ subscripts ds m /\ subscripts al (map snd l) /\ (target = [] /\ m = map snd l \/ placed target (map snd l) m).
Proof.
  intros G T N H. unfold strings in H. destruct (pv_dims v) as [|d0 dr] eqn:D; [congruence|]. apply bind_inv in H as (l & X & H).
  assert (C := dim_chars _ _ _ _ G X). destruct target as [|t r].
  - apply Ok_inj in H. injection H as <- <- _. exists l, (map snd l). repeat split; auto.
  - cbv beta iota zeta in H. match type of H with (if ?c then _ else _) = _ => destruct c end; [discriminate|]. apply bind_inv in H as (m & M & H). apply merge_placed in M as [P Q].
    apply Ok_inj in H. apply pair_equal_spec in H as [H _]. apply pair_equal_spec in H as [H1 H2]. exists l, (fst m). split; [exact X|].
    rewrite <- H1, <- H2, Q. repeat split; [| |now right]; apply comma_subscripts; auto. eapply placed_chars; eauto.
Qed.
Print Assumptions C166_placed.
Definition ar_one := mk "temperature" "t" [L "ccpp_constant_one:horizontal_loop_extent"].
Example C166_placed_example : strings true ex_defs ar_one [L ":"; L "nlev"] (L "(:,nlev)") = Ok (L "(ib:ie,nlev)", L "(ib:ie)", L "((ie-ib+1))").
Proof. vm_compute. reflexivity. Qed.
Theorem C166_colons run defs v target text l : pv_dims v <> [] -> target <> [] -> dim_texts run defs v = Ok l ->
  ((exists r, strings run defs v target text = Ok r) <-> length (List.filter (fun t => existsb (Ascii.eqb ":"%char) t) target) = length (pv_dims v)).
Proof.
  intros N T H. unfold strings. assert (LE : length l = length (pv_dims v)).
  { apply map_r_inv in H. clear N; induction H as [|? ? ? ? ? ? IH]; cbn; [reflexivity|now rewrite IH]. }
  destruct (pv_dims v) as [|d dr]; [congruence|]. rewrite H. cbn [bind]. destruct target as [|t r]; [congruence|].
  assert (MC := merge_count (t :: r) (map snd l)). rewrite map_length, LE in MC. change (length (List.filter (fun t => existsb (Ascii.eqb ":"%char) t) (t :: r))) with (colons (t :: r)).
  assert (CL : colons (t :: r) <= length (t :: r)).
  { unfold colons. clear. induction (t :: r) as [|x q IH]; cbn; [lia|]. destruct (has_char ":" x); cbn; lia. }
  rewrite LE. match goal with |- context [if ?c then _ else _] => destruct c eqn:Q end.
  - apply Nat.ltb_lt in Q. split; [intros (z & Z); discriminate|intros Z; lia].
  - destruct (Nat.compare_spec (length (d :: dr)) (colons (t :: r))) as [Z|Z|Z].
    + destruct MC as (m & ->). cbn [bind]. split; [auto|eauto].
    + rewrite MC. cbn [bind]. split; [intros (z & Y); discriminate|lia].
    + rewrite MC. cbn [bind]. split; [intros (z & Y); discriminate|lia].
Qed.
Print Assumptions C166_colons.
Example C166_colons_example : strings true ex_defs ar_t [L ":"; L "nlev"] (L "(:,nlev)") = Raise "Exception" /\ strings true ex_defs ar_one [L ":"; L ":"] (L "(:,:)") = Raise "IndexError".
Proof. vm_compute. auto. Qed.

(* C167: a dimension stays a dimension if its bounds differ *)
Theorem C167_rank E run defs v l : good defs v -> dim_texts run defs v = Ok l -> pv_type v <> L "character" ->
  (forall d a b, In d (pv_dims v) -> asked E run defs (pv_std v) d a b -> a <> b) ->
  exists sels, Forall2 (fun p s => forall lo up, selects E lo up (snd p) s) l sels /\ rank sels = length (pv_dims v).
Proof.
  intros G H T D. assert (F := C166_section E _ _ _ _ G H T). revert D. clear H. induction F as [|d p ds m (a & b & A & Sel) F IH]; intros D.
  - exists []. split; [constructor|reflexivity].
  - destruct IH as (sels & X & R); [intros e a' b' I; apply D; now right|]. exists (Sec a b :: sels). split.
    + constructor; auto. intros lo up. destruct (Sel lo up) as [Q|[Q _]]; auto. elim (D d a b); auto. now left.
    + unfold rank in *. cbn. now rewrite R.
Qed.
Print Assumptions C167_rank.
Example C167_example : exists sels, Forall2 (fun p s => forall lo up, selects ex_host lo up p s) [L "ib:ie"; L "one:nlev"] sels /\ rank sels = 2.
Proof.
  exists [Sec 11%Z 20%Z; Sec 1%Z 4%Z]. split; [|reflexivity]. repeat apply Forall2_cons; try apply Forall2_nil; intros lo up.
  - apply (S_sec ex_host lo up (L "ib") (L "ie")); [apply (N_obj ex_host (L "ib"))|apply (N_obj ex_host (L "ie"))]; now apply objb_ok.
  - apply (S_sec ex_host lo up (L "one") (L "nlev")); [apply (N_obj ex_host (L "one"))|apply (N_obj ex_host (L "nlev"))]; now apply objb_ok.
Qed.
(* a dimension with equal bounds becomes an index: the argument loses a dimension *)
Definition ar_flat := mk "temperature" "t" [L "ccpp_constant_one:horizontal_loop_extent"; L "1:1"].
Theorem C167_rank_refuted : exists ds size, strings true ex_defs ar_flat [] [] = Ok (ds, ds, size) /\ length (pv_dims ar_flat) = 2 /\
  subscripts ds [L "ib:ie"; L "1"] /\ forall E lo up a b, number E (L "1") a -> selects E lo up (L "1") (Elem a) /\ ~ selects E lo up (L "1") (Sec a b).
Proof.
  eexists _, _. split; [vm_compute; reflexivity|]. repeat split; [now constructor|].
  intros X. inversion X as [s t a' b' N M Q| |]. assert (I : In ":"%char (s ++ L ":" ++ t)) by (apply in_or_app; right; now left).
  assert (J := eq_rect _ (fun z : list ascii => In ":"%char z) I _ Q). destruct J as [J|[]]. discriminate.
Qed.
Print Assumptions C167_rank_refuted.

(* C168: the debug check can never fail, whatever the size of the host's array *)
Definition plain_index (E : host) (t : str) : Prop := In ":"%char t \/ exists a, number E t a.
Lemma placed_sels E target subs m : placed target subs m -> Forall (plain_index E) target -> forall sels,
  Forall2 (fun t s => forall lo up, selects E lo up t s) subs sels ->
  exists sels', Forall2 (fun t s => forall lo up, selects E lo up t s) m sels' /\ section_size sels' = section_size sels.
Proof.
  induction 1 as [|t s target subs l C P IH|t target subs l C P IH]; intros F sels X; inversion F as [|? ? Q F']; subst.
  - inversion X; subst. exists []. split; [constructor|reflexivity].
  - inversion X as [|? y ? ys Y1 Y2]; subst. destruct (IH F' _ Y2) as (z & Z1 & Z2). exists (y :: z). split; [now constructor|].
    unfold section_size, product in *. cbn [map fold_right]. now rewrite Z2.
  - destruct (IH F' _ X) as (z & Z1 & Z2). destruct Q as [Q|(a & A)]; [contradiction|]. exists (Elem a :: z). split.
    + constructor; auto. intros lo up. now constructor.
    + unfold section_size, product in *. cbn [map fold_right]. rewrite Z2. change (extent (Elem a)) with 1%Z. now rewrite Z.mul_1_l.
Qed.
Theorem C168_never_fires E run defs v target text name block ds al size arg expected :
  good defs v -> Forall (fun t => t <> [] /\ ~ In ","%char t) target -> Forall (fun t => In ":"%char t \/ exists a, number E t a) target ->
  (forall d lo hi, In d (pv_dims v) -> bounds d lo hi -> unsigned (lower lo)) -> (forall s x, In (s, x) defs -> unsigned (pv_local x)) ->
  (forall d a b, In d (pv_dims v) -> asked E run defs (pv_std v) d a b -> (0 <= b - a + 1)%Z) ->
  strings run defs v target text = Ok (ds, al, size) -> debug_check true run v name block text ds size = Some (arg, expected) ->
  exists base subs sels n, arg = base ++ ds /\ subscripts ds subs /\
    Forall2 (fun t s => forall lo up, selects E lo up t s) subs sels /\ expr E expected n /\ section_size sels = n.
Proof.
  intros G T TI UL UD NN H DB.
  assert (DC : pv_dims v <> [] /\ pv_type v <> L "character" /\ expected = size /\ exists base, arg = base ++ ds).
  { unfold debug_check in DB. cbn [negb] in DB. destruct (negb run && _); [discriminate|].
    destruct (pv_dims v); [discriminate|]. destruct (str_eqb (pv_type v) (L "character")) eqn:Q; [discriminate|].
    apply str_eqb_neq in Q. split; [discriminate|]. split; [exact Q|].
    assert (DB' := f_equal (fun o => match o with Some z => z | None => (arg, expected) end) DB). cbn beta iota in DB'.
    apply pair_equal_spec in DB' as [A B]. split; [auto|]. eexists. now rewrite <- A. }
  destruct DC as (N & TY & -> & base & ->).
  destruct (C166_placed _ _ _ _ _ _ _ _ G T N H) as (l & m & X & SB & _ & PL).
  assert (SZ : size = L "(" ++ join (L "*") (map fst l) ++ L ")").
  { unfold strings in H. destruct (pv_dims v); [congruence|]. rewrite X in H. cbn [bind] in H. destruct target.
    - apply Ok_inj in H. now apply pair_equal_spec in H as [_ <-].
    - match type of H with (if ?c then _ else _) = _ => destruct c end; [discriminate|]. apply bind_inv in H as (q & _ & H).
      apply Ok_inj in H. now apply pair_equal_spec in H as [_ <-]. }
  assert (K : exists ns sels, Forall2 (expr E) (map fst l) ns /\ Forall2 (fun t s => forall lo up, selects E lo up t s) (map snd l) sels /\ section_size sels = product ns).
  { apply map_r_inv in X. clear - G X UL UD NN TY.
    assert (K : forall dms q, Forall2 (fun x y => dim_text run defs v x = Ok y) dms q -> (forall d, In d dms -> In d (pv_dims v)) ->
      exists ns sels, Forall2 (expr E) (map fst q) ns /\ Forall2 (fun t s => forall lo up, selects E lo up t s) (map snd q) sels /\ section_size sels = product ns).
    { induction 1 as [|d p dms q Q F IH]; intros I; [exists [], []; repeat split; constructor|].
      destruct IH as (ns & sels & A1 & A2 & A3); [intros e J; apply I; now right|].
      assert (J := I d (or_introl eq_refl)).
      destruct (dim_num E _ _ _ _ _ G J Q) as (s & t & a & b & A & M1 & M2 & FP & SP & LO).
      assert (SP' : snd p = explicit_text s t) by (destruct SP as [SP|[SP _]]; [exact SP|contradiction]). clear SP.
      assert (W := NN d a b J A). assert (US : unsigned s).
      { destruct LO as [(lo & hi & B & [->|(x & K & ->)])|(n & x & _ & K & ->)]; eauto. }
      cbn [map]. destruct (explicit_selects E 0%Z 0%Z _ _ _ _ M1 M2) as [_|[Z _]].
      - exists ((b - a + 1)%Z :: ns). destruct (str_eqb s t) eqn:ST.
        + apply str_eqb_eq in ST. subst t. assert (b = a) by (eapply number_fun; eauto). subst b. exists (Elem a :: sels). repeat split.
          * constructor; auto. rewrite FP. unfold size_text. rewrite str_eqb_refl. replace (a - a + 1)%Z with 1%Z by lia.
            apply X_num, N_int; [|reflexivity]. exists [], (L "1"). repeat split; [now left|discriminate|intros c [<-|[]]; reflexivity].
          * constructor; auto. intros lo up. rewrite SP'. unfold explicit_text. rewrite str_eqb_refl. now constructor.
          * unfold section_size, product in *. cbn [map fold_right]. rewrite A3. cbn [extent]. now replace (a - a + 1)%Z with 1%Z by lia.
        + exists (Sec a b :: sels). repeat split.
          * constructor; auto. rewrite FP. unfold size_text. rewrite ST. now constructor.
          * constructor; auto. intros lo up. rewrite SP'. unfold explicit_text. rewrite ST. now constructor.
          * unfold section_size, product in *. cbn [map fold_right]. rewrite A3. cbn [extent]. now rewrite Z.max_r by lia.
      - subst b. exists ((a - a + 1)%Z :: ns). destruct (str_eqb s t) eqn:ST.
        + exists (Elem a :: sels). repeat split.
          * constructor; auto. rewrite FP. unfold size_text. rewrite ST. replace (a - a + 1)%Z with 1%Z by lia.
            apply X_num, N_int; [|reflexivity]. exists [], (L "1"). repeat split; [now left|discriminate|intros c [<-|[]]; reflexivity].
          * constructor; auto. intros lo up. rewrite SP'. unfold explicit_text. rewrite ST. now constructor.
          * unfold section_size, product in *. cbn [map fold_right]. rewrite A3. cbn [extent]. now replace (a - a + 1)%Z with 1%Z by lia.
        + exists (Sec a a :: sels). repeat split.
          * constructor; auto. rewrite FP. unfold size_text. rewrite ST. now constructor.
          * constructor; auto. intros lo up. rewrite SP'. unfold explicit_text. rewrite ST. now constructor.
          * unfold section_size, product in *. cbn [map fold_right]. rewrite A3. cbn [extent]. now rewrite Z.max_r by lia. }
    now apply (K (pv_dims v) l). }
  destruct K as (ns & sels & E1 & E2 & E3).
  assert (L1 : map fst l <> []).
  { apply map_r_inv in X. destruct (pv_dims v); [congruence|]. inversion X; subst. discriminate. }
  destruct PL as [[_ ->]|PL].
  - exists base, (map snd l), sels, (product ns). repeat split; auto. rewrite SZ. now constructor.
  - destruct (placed_sels E _ _ _ PL TI _ E2) as (sels' & Z1 & Z2). exists base, m, sels', (product ns). repeat split; auto; [rewrite SZ; now constructor|congruence].
Qed.
Print Assumptions C168_never_fires.
Example C168_example : debug_check true true ar_t (L "t") (L "nb") [] (L "(ib:ie,one:nlev)") (L "((ie-ib+1)*(nlev-one+1))") =
  Some (L "t(ib:ie,one:nlev)", L "((ie-ib+1)*(nlev-one+1))") /\ expr ex_host (L "((ie-ib+1)*(nlev-one+1))") 40%Z.
Proof.
  split; [vm_compute; reflexivity|].
  apply (X_prod ex_host [L "(ie-ib+1)"; L "(nlev-one+1)"] [10; 4]%Z); [discriminate|].
  assert (U : forall t : str, match t with c :: _ => negb (has_char c (L "+-")) | [] => true end = true -> unsigned t).
  { intros t H r. split; intros ->; discriminate. }
  repeat apply Forall2_cons; try apply Forall2_nil.
  - apply (X_ext ex_host (L "ib") (L "ie") 11 20); [apply (N_obj ex_host (L "ie"))|apply (N_obj ex_host (L "ib"))|now apply U]; now apply objb_ok.
  - apply (X_ext ex_host (L "one") (L "nlev") 1 4); [apply (N_obj ex_host (L "nlev"))|apply (N_obj ex_host (L "one"))|now apply U]; now apply objb_ok.
Qed.
(* an array of the host that is too small is not reported: the check does not look at it *)
Theorem C168_reports_refuted : exists ds al size, strings true ex_defs ar_t [] [] = Ok (ds, al, size) /\ subscripts ds [L "ib:ie"; L "one:nlev"] /\
  forall array : list (Z * Z), length array = 2 -> (* the bounds of the array, whatever they are *)
  exists sels, Forall2 (fun t s => forall lo up, In (lo, up) array -> selects ex_host lo up t s) [L "ib:ie"; L "one:nlev"] sels /\
    section_size sels = 40%Z /\ expr ex_host size 40%Z.
Proof.
  eexists _, _, _. split; [vm_compute; reflexivity|]. split; [reflexivity|]. intros array _. exists [Sec 11%Z 20%Z; Sec 1%Z 4%Z]. repeat split.
  - repeat apply Forall2_cons; try apply Forall2_nil; intros lo up _.
    + apply (S_sec ex_host lo up (L "ib") (L "ie")); [apply (N_obj ex_host (L "ib"))|apply (N_obj ex_host (L "ie"))]; now apply objb_ok.
    + apply (S_sec ex_host lo up (L "one") (L "nlev")); [apply (N_obj ex_host (L "one"))|apply (N_obj ex_host (L "nlev"))]; now apply objb_ok.
  - apply C168_example.
Qed.
Print Assumptions C168_reports_refuted.
(* a dimension that is empty makes the check stop the model if it is empty by more than one *)
Theorem C168_empty_refuted : exists v ds size sels n (E : host), good ex_defs v /\ strings true ex_defs v [] [] = Ok (ds, ds, size) /\ subscripts ds [L "2:nlev"] /\
  Forall2 (fun t s => forall lo up, selects E lo up t s) [L "2:nlev"] sels /\ expr E size n /\ (* no element *) section_size sels = 0%Z /\ n <> 0%Z.
Proof.
  assert (I2 : int_literal (L "2")) by (exists [], (L "2"); repeat split; [now left|discriminate|intros c [<-|[]]; reflexivity]).
  exists (mk "humidity" "q" [L "2:vertical_layer_dimension"]), (L "(2:nlev)"), (L "((nlev-2+1))"), [Sec 2%Z 0%Z], (-1)%Z, (fun _ => 0%Z).
  repeat split.
  - apply (ex_good ar_q (or_intror eq_refl)).
  - intros d [<-|[]]. apply (g_dims _ _ (ex_good ar_q (or_intror eq_refl))). right. now left.
  - intros s x I [J|(d & lo & hi & [<-|[]] & Q)]; apply (g_name _ _ (ex_good ar_q (or_intror eq_refl)) s x I); [now left|right].
    exists (L "2:vertical_layer_dimension"), lo, hi. split; [right; now left|exact Q].
  - intros d lo hi [<-|[]]. apply (g_int _ _ (ex_good ar_q (or_intror eq_refl)) (L "2:vertical_layer_dimension")). right. now left.
  - apply (g_host _ _ (ex_good ar_q (or_intror eq_refl))).
  - apply Forall2_cons; [|apply Forall2_nil]. intros lo up. apply (S_sec _ lo up (L "2") (L "nlev")); [apply N_int; [exact I2|reflexivity]|].
    apply (N_obj (fun _ => 0%Z) (L "nlev")). now apply objb_ok.
  - apply (X_prod _ [L "(nlev-2+1)"] [-1]%Z); [discriminate|]. apply Forall2_cons; [|apply Forall2_nil].
    apply (X_ext _ (L "2") (L "nlev") 2 0); [apply (N_obj (fun _ => 0%Z) (L "nlev")); now apply objb_ok|apply N_int; [exact I2|reflexivity]|].
    intros r. split; discriminate.
  - discriminate.
Qed.
Print Assumptions C168_empty_refuted.
(* a lower bound with a sign: two signs in a row *)
Theorem C168_signed_refuted : exists ds, strings true ex_defs (mk "humidity" "q" [L "-1:vertical_layer_dimension"]) [] [] = Ok (ds, ds, L "((nlev--1+1))") /\ subscripts ds [L "-1:nlev"].
Proof. eexists. split; [vm_compute; reflexivity|reflexivity]. Qed.
Print Assumptions C168_signed_refuted.

(* C169: errors *)
Definition known (defs : pdefs) (b : str) : Prop := py_int b <> None \/ exists v, In (b, v) defs.
Lemma bound_known defs b t : bound defs b = Ok t -> known defs b.
Proof.
  unfold bound, known. destruct (py_int b); [intros _; left; discriminate|]. destruct (assoc defs b) eqn:Q; [|discriminate]. intros _. right. eauto using assoc_in.
Qed.
Lemma known_bound defs b : NoDup (map fst defs) -> known defs b -> exists t, bound defs b = Ok t /\ (t = b /\ py_int b <> None \/ exists v, In (b, v) defs /\ t = pv_local v).
Proof.
  unfold bound, known. intros ND K. destruct (py_int b) eqn:P; [exists b; split; auto; left; split; auto; discriminate|].
  destruct K as [K|(v & I)]; [easy|]. rewrite (in_assoc _ _ _ ND I). eauto 6.
Qed.
Lemma dims_each (P : str -> Prop) run defs v l : dim_texts run defs v = Ok l -> (forall d p, dim_text run defs v d = Ok p -> P d) -> Forall P (pv_dims v).
Proof. intros H X. apply map_r_inv in H. induction H; constructor; eauto. Qed.
Theorem C169_known run defs v l : dim_texts run defs v = Ok l ->
  Forall (fun d => In ":"%char d /\ d <> L "ccpp_block_number" /\ forall lo hi, bounds d lo hi ->
    known defs (lower lo) /\ (known defs (lower hi) \/ run = true /\ lower hi = L "horizontal_loop_extent")) (pv_dims v).
Proof.
  intros H. eapply dims_each; [exact H|]. clear. intros d p H. unfold dim_text in H. destruct (str_eqb d c_block_number) eqn:Q; [discriminate|].
  apply str_eqb_neq in Q. destruct (has_char ":" d) eqn:C; [|discriminate]. apply has_char_in in C. split; [exact C|]. split; [exact Q|].
  intros lo hi B. apply bounds_split in B. rewrite B in H. cbn [negb map nth] in H.
  apply bind_inv in H as (d0 & D0 & H). apply bind_inv in H as (r & R & _). split; [eapply bound_known; eauto|].
  destruct (py_int (lower hi)) eqn:P; [left; left; congruence|]. destruct (run && str_eqb (lower hi) c_extent) eqn:RE.
  - apply andb_prop in RE as [-> RE]. apply str_eqb_eq in RE. right. auto.
  - left. destruct (assoc defs (lower hi)) eqn:K; [|discriminate]. right. eauto using assoc_in.
Qed.
Print Assumptions C169_known.
Example C169_known_example : dim_texts true ex_defs (mk "temperature" "t" [L "ccpp_constant_one:soil_levels"]) = Raise "Exception".
Proof. vm_compute. reflexivity. Qed.
Theorem C169_phase run defs v l : dim_texts run defs v = Ok l ->
  Forall (fun d => forall lo hi b, bounds d lo hi -> b = lower lo \/ b = lower hi ->
    b <> L "horizontal_loop_begin" /\ b <> L "horizontal_loop_end" /\ (run = true -> b <> L "horizontal_dimension")) (pv_dims v).
Proof.
  intros H. eapply dims_each; [exact H|]. clear. intros d p H lo hi b B X. apply bounds_split in B.
  unfold dim_text in H. destruct (str_eqb d c_block_number); [discriminate|]. destruct (negb (has_char ":" d)); [discriminate|].
  rewrite B in H. cbn [map nth] in H. apply bind_inv in H as (d0 & D0 & H). apply bind_inv in H as (r & R & H).
  assert (I : In b [lower lo; lower hi]) by (destruct X as [-> | ->]; cbn; auto).
  destruct (misplaced run [lower lo; lower hi] (fst (fst r))) eqn:M; [discriminate|]. unfold misplaced in M.
  destruct run.
  - destruct (str_eqb (nth 1 [lower lo; lower hi] []) c_extent && str_eqb (fst (fst r)) []); [discriminate|].
    apply orb_false_elim in M as [M M3]. apply orb_false_elim in M as [M1 M2]. apply mem_not in M1, M2, M3.
    repeat split; [| |intros _]; intros ->; auto.
  - apply orb_false_elim in M as [_ M]. apply orb_false_elim in M as [M _]. apply orb_false_elim in M as [M1 M2]. apply mem_not in M1, M2.
    repeat split; [| |discriminate]; intros ->; auto.
Qed.
Print Assumptions C169_phase.
Example C169_phase_example : dim_texts true ex_defs (mk "temperature" "t" [L "ccpp_constant_one:horizontal_dimension"]) = Raise "Exception" /\
  dim_texts false ex_defs (mk "temperature" "t" [L "horizontal_loop_begin:horizontal_loop_end"]) = Raise "Exception" /\
  dim_texts false ex_defs (mk "temperature" "t" [L "ccpp_constant_one:horizontal_dimension"]) = Ok [(L "(ncol-one+1)", L "one:ncol")].
Proof. vm_compute. auto. Qed.
(* the length of a chunk is no dimension outside the run phase, but it is accepted *)
Theorem C169_phase_refuted : exists l, dim_texts false ex_defs ar_one = Ok l /\ In (L "ccpp_constant_one:horizontal_loop_extent") (pv_dims ar_one).
Proof. eexists. split; [vm_compute; reflexivity|now left]. Qed.
Print Assumptions C169_phase_refuted.
(* what is known and in its phase is accepted *)
Theorem C169_accepts (run : bool) defs v : NoDup (map fst defs) -> (forall s x, In (s, x) defs -> pv_local x <> []) ->
  (forall d, In d (pv_dims v) -> exists lo hi, bounds d lo hi /\ known defs (lower lo) /\ known defs (lower hi) /\ lower lo <> [] /\
    (forall b, b = lower lo \/ b = lower hi -> b <> L "horizontal_loop_begin" /\ b <> L "horizontal_loop_end" /\
      (if run then b <> L "horizontal_dimension" else b <> L "ccpp_loop_extent")) /\
    (run = true -> lower hi = L "horizontal_loop_extent" -> exists h, In (pv_std v, h) defs /\ (forall e, In e (pv_dims h) -> In ":"%char e) /\
      (has_dim (L "horizontal_dimension") h \/ has_dim (L "horizontal_loop_extent") h) /\
      known defs (L "horizontal_loop_end") /\ known defs (L "ccpp_constant_one"))) ->
  exists l, dim_texts run defs v = Ok l.
Proof.
  intros ND LN X. assert (D : forall d, In d (pv_dims v) -> exists p, dim_text run defs v d = Ok p).
  { intros d I. destruct (X d I) as (lo & hi & B & KL & KH & NE & PH & HZ). clear X. assert (SP := proj1 (bounds_split _ _ _) B).
    unfold dim_text. assert (C : In ":"%char d) by (destruct B as (-> & _); apply in_or_app; right; now left).
    assert (Q : str_eqb d c_block_number = false).
    { apply str_eqb_neq. intros ->. apply has_char_in in C. discriminate. }
    rewrite Q, (proj2 (has_char_in _ _) C), SP. cbn [negb map nth].
    destruct (known_bound _ _ ND KL) as (d0 & -> & D0). cbn [bind].
    assert (N0 : d0 <> []).
    { destruct D0 as [[-> _]|(x & J & ->)]; eauto. }
    assert (F : exists r, match py_int (lower hi) with Some _ => Ok (d0, lower hi, negb (str_eqb (pv_type v) (L "character")))
       | None => if run && str_eqb (lower hi) c_extent then h <- run_horizontal defs (pv_std v) ;; Ok (fst (fst h), snd (fst h), if snd h then true else negb (str_eqb (pv_type v) (L "character")))
         else match assoc defs (lower hi) with Some x => Ok (d0, pv_local x, negb (str_eqb (pv_type v) (L "character"))) | None => Raise "Exception" end end = Ok r /\ fst (fst r) <> []).
    { destruct (py_int (lower hi)) eqn:P; [eexists; split; [reflexivity|exact N0]|].
      destruct (run && str_eqb (lower hi) c_extent) eqn:RE.
      - apply andb_prop in RE as [-> RE]. apply str_eqb_eq in RE. destruct (HZ eq_refl RE) as (h & IH & CO & HD & KE & KO).
        destruct (known_bound _ _ ND KH) as (_ & _ & [[_ Z]|(xe & JE & _)]); [now rewrite P in Z|].
        destruct KE as [KE|(xn & JN)]; [elim KE; reflexivity|]. destruct KO as [KO|(xo & JO)]; [elim KO; reflexivity|].
        rewrite RE in JE. unfold run_horizontal, local. rewrite (in_assoc _ _ _ ND IH).
        assert (CT : forall l acc, (forall e, In e l -> In ":"%char e) -> exists c, contiguous l acc = Ok c /\
          ((acc <> None \/ exists e, In e l /\ (mem c_horizontal (map lower (split_on ":" e)) = true \/ mem c_extent (map lower (split_on ":" e)) = true)) -> c <> None)).
        { clear. induction l as [|e l IH]; intros acc A.
          - exists acc. split; [reflexivity|]. intros [H|(e & [] & _)]. exact H.
          - rewrite contiguous_cons, (proj2 (has_char_in _ _) (A e (or_introl eq_refl))). cbn [negb].
            destruct (IH (if mem c_horizontal (map lower (split_on ":" e)) then Some true else if mem c_extent (map lower (split_on ":" e)) then Some false else acc)) as (c & C & D); [intros f J; apply A; now right|].
            exists c. split; [exact C|]. intros H. apply D.
            destruct (mem c_horizontal (map lower (split_on ":" e))) eqn:M1; [left; discriminate|].
            destruct (mem c_extent (map lower (split_on ":" e))) eqn:M2; [left; discriminate|].
            destruct H as [H|(f & [->|J] & M)]; [left; exact H|destruct M; congruence|right; eauto]. }
        destruct (CT (pv_dims h) None CO) as (c & -> & CN). cbn [bind].
        assert (C' : c <> None).
        { apply CN. right. destruct HD as [HD|HD]; apply has_dim_mem in HD as (e & J & M); eauto. }
        change (In (c_end, xn) defs) in JN. change (In (c_one, xo) defs) in JO.
        rewrite (in_assoc _ _ _ ND JN), (in_assoc _ _ _ ND JO), (in_assoc _ _ _ ND JE). cbn [bind].
        destruct (assoc defs c_begin) as [xb|] eqn:BB; [apply assoc_in in BB|]; destruct c as [[|]|]; try congruence; cbn [bind fst snd]; eexists; (split; [reflexivity|cbn; eauto]).
      - destruct KH as [KH|(y & J)]; [congruence|]. rewrite (in_assoc _ _ _ ND J). eexists. split; [reflexivity|exact N0]. }
    destruct F as (r & -> & NR). cbn [bind].
    assert (M : misplaced run [lower lo; lower hi] (fst (fst r)) = false).
    { unfold misplaced. assert (Z : str_eqb (fst (fst r)) [] = false) by now apply str_eqb_neq. rewrite Z, !andb_false_r. cbn [orb].
      assert (MM : forall c, (forall b, b = lower lo \/ b = lower hi -> b <> c) -> mem c [lower lo; lower hi] = false).
      { intros c K. apply mem_not. intros [J|[J|[]]]; apply (K c); auto. }
      rewrite (MM c_begin), (MM c_end); [|intros b J; now apply PH|intros b J; now apply PH]. cbn [orb].
      destruct run; apply MM; intros b J; destruct (PH b J) as (_ & _ & W); exact W. }
    rewrite M. eauto. }
  unfold dim_texts. revert D. clear. induction (pv_dims v) as [|d ds IH]; intros D; [exists []; reflexivity|]. cbn.
  destruct (D d (or_introl eq_refl)) as (p & ->). destruct IH as (l & ->); [intros e I; apply D; now right|]. cbn. eauto.
Qed.
Print Assumptions C169_accepts.
Example C169_accepts_example : exists l, dim_texts false ex_defs ex_t = Ok l /\ dim_texts true ex_defs ar_t <> Raise "Exception".
Proof. eexists. split; [vm_compute; reflexivity|vm_compute; discriminate]. Qed.
(* a host variable without a horizontal dimension: Python's error, not a message *)
Theorem C169_message_refuted : dim_texts true (map (fun v => (pv_std v, v)) [mk "horizontal_loop_begin" "ib" []; mk "horizontal_loop_end" "ie" []; mk "horizontal_loop_extent" "im" [];
  mk "ccpp_constant_one" "one" []; mk "temperature" "t" [L "ccpp_constant_one:levels"]]) ar_one = Raise "UnboundLocalError".
Proof. vm_compute. reflexivity. Qed.
Print Assumptions C169_message_refuted.
