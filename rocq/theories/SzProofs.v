(* SzProofs.v: the sections of ccpp_prebuild caps. *)
From Coq Require Import List Ascii String ZArith Bool Lia.
From Verif Require Import PyStr Base PhaseSpec CheckSpec CheckProofs LitProofs ReqModel ReqProofs SelModel ParModel ParProofs ArModel ArProofs SzModel SzSpec.
Import ListNotations.
Open Scope nat_scope. Open Scope list_scope.

Lemma assoc_in {A} (l : list (str * A)) n v : assoc l n = Some v -> In (n, v) l.
Proof.
  induction l as [|[k w] l IH]; cbn; [discriminate|]. destruct (str_eqb k n) eqn:E; [|auto].
  intros [= ->]. apply str_eqb_eq in E. subst. now left.
Qed.
Lemma in_assoc {A} (l : list (str * A)) n v : NoDup (map fst l) -> In (n, v) l -> assoc l n = Some v.
Proof.
  induction l as [|[k w] l IH]; cbn; [easy|]. intros ND I. inversion ND as [|? ? NI ND']; subst. destruct I as [[= -> ->]|I].
  - now rewrite str_eqb_refl.
  - destruct (str_eqb k n) eqn:E; [|auto]. apply str_eqb_eq in E. subst. elim NI. apply in_map_iff. exists (n, v). auto.
Qed.
Lemma assoc_none {A} (l : list (str * A)) n : assoc l n = None -> forall v, ~ In (n, v) l.
Proof.
  induction l as [|[k w] l IH]; cbn; [easy|]. destruct (str_eqb k n) eqn:E; [discriminate|]. intros H v [[= -> ->]|I]; [now rewrite str_eqb_refl in E|]. eapply IH; eauto.
Qed.
Lemma bounds_split d lo hi : bounds d lo hi <-> split_on ":" d = [lo; hi].
Proof.
  split.
  - intros (-> & A & B). change (lo ++ L ":" ++ hi) with (join [":"%char] [lo; hi]). apply split_join; [discriminate|]. intros x [<-|[<-|[]]]; auto.
  - intros E. assert (J := join_split ":"%char d). rewrite E in J. cbn in J. split; [symmetry; exact J|].
    split; apply (split_on_no_sep ":"%char d); rewrite E; [now left|right; now left].
Qed.

Lemma int_chars t c : int_literal t -> In c t -> c = "+"%char \/ c = "-"%char \/ is_digit c = true.
Proof.
  intros (g & d & -> & G & _ & D) I. apply in_app_iff in I as [I|I]; [|auto].
  destruct G as [-> | [-> | ->]]; cbn in I; [easy| |]; destruct I as [<-|[]]; auto.
Qed.
Lemma digit_facts c : is_digit c = true -> is_space c = false /\ c <> ":"%char /\ c <> ","%char.
Proof. destruct c as [[|] [|] [|] [|] [|] [|] [|] [|]]; vm_compute; intros; try discriminate; repeat split; congruence. Qed.
Lemma int_lit_py t : int_literal t -> py_int t <> None.
Proof.
  intros I. assert (X : CheckModel.is_some (py_int t) = true).
  { apply py_int_some; auto; [|now apply int_no_under]. intros c C. destruct (int_chars _ _ I C) as [-> | [-> | D]]; try reflexivity. now apply digit_facts. }
  intros N. now rewrite N in X.
Qed.
Lemma int_no t c : int_literal t -> (c = ":"%char \/ c = ","%char) -> ~ In c t.
Proof.
  intros I C J. destruct (int_chars _ _ I J) as [-> | [-> | D]]; [destruct C; discriminate|destruct C; discriminate|].
  apply digit_facts in D as (_ & A & B). destruct C; auto.
Qed.
Lemma int_nonempty t : int_literal t -> t <> [].
Proof. intros (g & d & -> & _ & N & _) E. apply app_eq_nil in E as [_ E]. auto. Qed.
Lemma number_of E t : object_text t \/ int_literal t -> exists n, number E t n.
Proof.
  intros [O|I]; [exists (E t); now constructor|]. assert (P := int_lit_py _ I). destruct (py_int t) as [n|] eqn:Q; [|easy]. exists n. now apply N_int.
Qed.
Lemma number_fun E t a b : number E t a -> number E t b -> a = b.
Proof. intros [u n I P|u (P & _)] H; inversion H as [u' m I' P'|u' (P' & _)]; subst; congruence. Qed.
Lemma number_text E t n : number E t n -> t <> [] /\ ~ In ":"%char t /\ ~ In ","%char t.
Proof.
  intros [u m I P|u (P & N & O)].
  - repeat split; [now apply int_nonempty|apply int_no; auto|apply int_no; auto].
  - repeat split; [exact N|intros C; apply (O _ C); now left|intros C; apply (O _ C); now (right; left)].
Qed.
Lemma bound_num E defs b t : bound defs b = Ok t -> NoDup (map fst defs) -> (py_int b <> None -> int_literal b) ->
  (forall x, In (b, x) defs -> object_text (pv_local x) \/ int_literal (pv_local x)) ->
  exists n, bound_value E defs b n /\ number E t n.
Proof.
  unfold bound. intros H ND I O. destruct (py_int b) as [n|] eqn:P.
  - apply Ok_inj in H. subst t. exists n. split; [now constructor|]. apply N_int; auto. apply I. discriminate.
  - destruct (assoc defs b) as [x|] eqn:Q; [|discriminate]. apply Ok_inj in H. subst t. apply assoc_in in Q.
    destruct (number_of E _ (O _ Q)) as (n & N). exists n. split; auto. eapply B_var; eauto.
Qed.
Lemma local_num E defs b t : local defs b = Ok t -> py_int b = None ->
  (forall x, In (b, x) defs -> object_text (pv_local x) \/ int_literal (pv_local x)) ->
  exists n, bound_value E defs b n /\ number E t n.
Proof.
  unfold local. intros H P O. destruct (assoc defs b) as [x|] eqn:Q; [|discriminate]. apply Ok_inj in H. subst t. apply assoc_in in Q.
  destruct (number_of E _ (O _ Q)) as (n & N). exists n. split; auto. eapply B_var; eauto.
Qed.

(* ---- the host variable's horizontal dimension ---- *)
Lemma has_dim_mem name v : has_dim name v <-> exists d, In d (pv_dims v) /\ mem name (map lower (split_on ":" d)) = true.
Proof.
  split.
  - intros (d & ps & I & -> & (p & J & Q) & N). eexists. split; [exact I|]. apply mem_in, in_map_iff. exists p. split; auto.
    rewrite split_join; auto. intros ->. destruct J.
  - intros (d & I & M). apply mem_in, in_map_iff in M as (p & Q & J). exists d, (split_on ":" d). repeat split; auto.
    + symmetry. apply join_split.
    + eauto.
    + intros q K. eapply split_on_no_sep; eauto.
Qed.
Lemma contiguous_cons d l acc : contiguous (d :: l) acc = if negb (has_char ":" d) then Raise "Exception"
  else contiguous l (if mem c_horizontal (map lower (split_on ":" d)) then Some true else if mem c_extent (map lower (split_on ":" d)) then Some false else acc).
Proof. reflexivity. Qed.
Lemma contiguous_true l : forall acc, contiguous l acc = Ok (Some true) -> acc = Some true \/ exists d, In d l /\ mem c_horizontal (map lower (split_on ":" d)) = true.
Proof.
  induction l as [|d l IH]; intros acc H.
  - cbn in H. apply Ok_inj in H. auto.
  - rewrite contiguous_cons in H. destruct (has_char ":" d); [|discriminate]. cbn [negb] in H. apply IH in H as [H|(e & I & M)]; [|right; exists e; split; [now right|exact M]].
    destruct (mem c_horizontal (map lower (split_on ":" d))) eqn:Q; [right; exists d; split; [now left|exact Q]|].
    destruct (mem c_extent (map lower (split_on ":" d))); [discriminate|auto].
Qed.
Lemma contiguous_whole l : forall acc c, contiguous l acc = Ok c -> (forall d, In d l -> mem c_extent (map lower (split_on ":" d)) = false) ->
  (acc = Some true \/ exists d, In d l /\ mem c_horizontal (map lower (split_on ":" d)) = true) -> c = Some true.
Proof.
  induction l as [|d l IH]; intros acc c H NE X.
  - cbn in H. apply Ok_inj in H. destruct X as [X|(d & [] & _)]. congruence.
  - rewrite contiguous_cons in H. destruct (has_char ":" d); [|discriminate]. cbn [negb] in H. rewrite (NE d) in H by now left. eapply IH; [exact H|intros e I; apply NE; now right|].
    destruct (mem c_horizontal (map lower (split_on ":" d))) eqn:Q; [auto|].
    destruct X as [X|(e & [->|I] & M)]; [auto|congruence|eauto].
Qed.
Lemma not_extent v : ~ has_dim c_extent v -> forall d, In d (pv_dims v) -> mem c_extent (map lower (split_on ":" d)) = false.
Proof. intros N d I. destruct (mem c_extent (map lower (split_on ":" d))) eqn:Q; auto. elim N. apply has_dim_mem. eauto. Qed.

Definition four : list str := map L ["horizontal_loop_begin"; "horizontal_loop_end"; "ccpp_constant_one"; "horizontal_loop_extent"]%string.
Lemma horizontal_num E defs v d lo hi b e x : good defs v -> bounds d lo hi -> lower hi = c_extent ->
  run_horizontal defs (pv_std v) = Ok (b, e, x) ->
  exists na nb, asked E true defs (pv_std v) d na nb /\ number E b na /\ number E e nb.
Proof.
  intros G B X H. unfold run_horizontal in H. destruct (assoc defs (pv_std v)) as [h|] eqn:Q; [|discriminate].
  apply bind_inv in H as (c & C & H). assert (I := assoc_in _ _ _ Q).
  assert (F : forall n, In n four -> forall y, In (n, y) defs -> object_text (pv_local y) \/ int_literal (pv_local y)).
  { intros n J y K. eapply (g_name _ _ G); eauto. }
  assert (NW : c <> Some true -> ~ whole h).
  { intros N W. assert (NE := g_host _ _ G _ I). assert (NX : ~ has_dim c_extent h) by (intros Z; apply NE; split; auto).
    apply N. eapply contiguous_whole; [exact C|now apply not_extent|]. right. now apply has_dim_mem. }
  assert (W : c = Some true -> whole h).
  { intros ->. apply contiguous_true in C as [C|C]; [discriminate|]. now apply has_dim_mem. }
  destruct (assoc defs c_begin) as [y|] eqn:Y.
  - destruct c as [[|]|]; [| |discriminate].
    + apply bind_inv in H as (t & T & H). injection H as <- <- <-.
      destruct (local_num E defs c_begin (pv_local y)) as (na & VA & A); [unfold local; now rewrite Y|reflexivity|apply F; now left|].
      destruct (local_num E defs c_end t) as (nb & VB & B2); [exact T|reflexivity|apply F; right; now left|].
      exists na, nb. repeat split; auto. eapply A_chunk; eauto using assoc_in. 
    + apply bind_inv in H as (o & O & H). apply bind_inv in H as (t & T & H). injection H as <- <- <-.
      destruct (local_num E defs c_one o) as (na & VA & A); [exact O|reflexivity|apply F; right; right; now left|].
      destruct (local_num E defs c_extent t) as (nb & VB & B2); [exact T|reflexivity|apply F; right; right; right; now left|].
      exists na, nb. repeat split; auto. eapply A_block; eauto. left. apply NW. discriminate.
  - apply bind_inv in H as (o & O & H). apply bind_inv in H as (t & T & H). destruct c; [|discriminate]. injection H as <- <- <-.
    destruct (local_num E defs c_one o) as (na & VA & A); [exact O|reflexivity|apply F; right; right; now left|].
    destruct (local_num E defs c_extent t) as (nb & VB & B2); [exact T|reflexivity|apply F; right; right; right; now left|].
    exists na, nb. repeat split; auto. eapply A_block; eauto. right. now apply assoc_none.
Qed.

(* what one dimension yields *)
Definition explicit_text (s t : str) : str := if str_eqb s t then t else s ++ L ":" ++ t.
Definition size_text (s t : str) : str := if str_eqb s t then L "1" else L "(" ++ t ++ L "-" ++ s ++ L "+1)".
Lemma dim_num E run defs v d p : good defs v -> In d (pv_dims v) -> dim_text run defs v d = Ok p ->
  exists s t a b, asked E run defs (pv_std v) d a b /\ number E s a /\ number E t b /\ fst p = size_text s t /\
    (snd p = explicit_text s t \/ pv_type v = L "character" /\ snd p = L ":") /\
    ((exists lo hi, bounds d lo hi /\ (s = lower lo \/ exists x, In (lower lo, x) defs /\ s = pv_local x)) \/
     exists n x, In n four /\ In (n, x) defs /\ s = pv_local x).
Proof.
  intros G I H. unfold dim_text in H. destruct (str_eqb d c_block_number); [discriminate|].
  destruct (negb (has_char ":" d)); [discriminate|].
  destruct (g_dims _ _ G _ I) as (lo & hi & B). assert (SP := proj1 (bounds_split _ _ _) B). rewrite SP in H. cbn [map nth] in H.
  apply bind_inv in H as (d0 & D0 & H). apply bind_inv in H as ([[s t] x] & R & H). cbn [fst snd] in H.
  destruct (misplaced run [lower lo; lower hi] s); [discriminate|]. injection H as <-. cbn [fst snd].
  assert (FN : forall b, b = lower lo \/ b = lower hi -> forall y, In (b, y) defs -> object_text (pv_local y) \/ int_literal (pv_local y)).
  { intros b K y J. eapply (g_name _ _ G); eauto. right. exists d, lo, hi. auto. }
  destruct (bound_num E defs (lower lo) d0 D0 (g_once _ _ G)) as (na & VA & A).
  { intros P. eapply (g_int _ _ G); eauto. }
  { apply FN. now left. }
  assert (S0 : d0 = lower lo \/ exists y, In (lower lo, y) defs /\ d0 = pv_local y).
  { unfold bound in D0. destruct (py_int (lower lo)); [left; now apply Ok_inj in D0|]. destruct (assoc defs (lower lo)) as [y|] eqn:Q; [|discriminate].
    right. exists y. split; [now apply assoc_in|]. now apply Ok_inj in D0. }
  assert (T : forall z, (z = true \/ z = negb (str_eqb (pv_type v) (L "character"))) ->
    (if z then if str_eqb s t then t else s ++ L ":" ++ t else L ":") = explicit_text s t \/
    pv_type v = L "character" /\ (if z then if str_eqb s t then t else s ++ L ":" ++ t else L ":") = L ":").
  { intros [|] K; [now left|]. destruct K as [K|K]; [discriminate|]. right. split; auto.
    destruct (str_eqb (pv_type v) (L "character")) eqn:Q; [now apply str_eqb_eq in Q|discriminate]. }
  unfold size_text. destruct (py_int (lower hi)) as [n|] eqn:P.
  - injection R as <- <- <-. exists d0, (lower hi), na, n.
    repeat split; auto; [|apply N_int; auto; eapply (g_int _ _ G); eauto; now rewrite P|left; eauto].
    eapply A_plain; eauto; [|now constructor]. right. intros Q. rewrite Q in P. discriminate.
  - destruct (run && str_eqb (lower hi) c_extent) eqn:RE.
    + apply bind_inv in R as ([[b e] y] & R & W). cbn [fst snd] in W. apply andb_prop in RE as [-> RE]. apply str_eqb_eq in RE.
      assert (W' : s = b /\ t = e /\ x = if y then true else negb (str_eqb (pv_type v) (L "character"))).
      { apply Ok_inj in W. apply pair_equal_spec in W as [W W3]. apply pair_equal_spec in W as [W1 W2]. auto. } clear W. destruct W' as (-> & -> & ->).
      destruct (horizontal_num E _ _ _ _ _ _ _ _ G B RE R) as (ma & mb & AS & MA & MB).
      exists b, e, ma, mb. repeat split; auto; [apply T; destruct y; auto|].
      right. unfold run_horizontal in R. destruct (assoc defs (pv_std v)) as [h|]; [|discriminate]. apply bind_inv in R as (c & _ & R).
      assert (F2 : forall o, (exists n, In n four /\ local defs n = Ok o) -> exists n x, In n four /\ In (n, x) defs /\ o = pv_local x).
      { intros o (n & J & K). unfold local in K. destruct (assoc defs n) as [w|] eqn:Q; [|discriminate]. apply Ok_inj in K. apply assoc_in in Q. eauto 6. }
      apply F2. destruct (assoc defs c_begin) as [w|] eqn:Y.
      * destruct c as [[|]|]; [| |discriminate].
        -- apply bind_inv in R as (? & _ & R). injection R as <- _ _. exists c_begin. split; [now left|]. unfold local. now rewrite Y.
        -- apply bind_inv in R as (o & O & R). apply bind_inv in R as (? & _ & R). injection R as <- _ _. exists c_one. split; [right; right; now left|exact O].
      * apply bind_inv in R as (o & O & R). apply bind_inv in R as (? & _ & R). destruct c; [|discriminate]. injection R as <- _ _. exists c_one. split; [right; right; now left|exact O].
    + destruct (assoc defs (lower hi)) as [y|] eqn:Q; [|discriminate]. injection R as <- <- <-.
      destruct (bound_num E defs (lower hi) (pv_local y)) as (nb & VB & B2); [unfold bound; now rewrite P, Q|exact (g_once _ _ G)| |apply FN; now right|].
      { rewrite P. easy. }
      exists d0, (pv_local y), na, nb. repeat split; auto; [|left; eauto].
      eapply A_plain; eauto. destruct run; [right|now left]. intros Z. rewrite Z, str_eqb_refl in RE. discriminate.
Qed.
Lemma explicit_selects E l u s t a b : number E s a -> number E t b ->
  selects E l u (explicit_text s t) (Sec a b) \/ (a = b /\ selects E l u (explicit_text s t) (Elem a)).
Proof.
  unfold explicit_text. intros A B. destruct (str_eqb s t) eqn:Q.
  - apply str_eqb_eq in Q. subst t. right. assert (b = a) by (eapply number_fun; eauto). subst b. split; auto. now constructor.
  - left. now constructor.
Qed.

(* ---- merging ---- *)
Lemma merge_placed target : forall subs m, merge target subs = Ok m -> placed target subs (fst m) /\ snd m = subs.
Proof.
  induction target as [|t r IH]; cbn; intros subs m H.
  - destruct subs; [|discriminate]. apply Ok_inj in H. subst m. split; [constructor|reflexivity].
  - destruct (has_char ":" t) eqn:C.
    + apply has_char_in in C. destruct subs as [|s q]; [discriminate|]. apply bind_inv in H as (m' & M & H). apply Ok_inj in H. subst m. cbn.
      apply IH in M as [P ->]. split; auto. now constructor.
    + apply has_char_out in C. apply bind_inv in H as (m' & M & H). apply Ok_inj in H. subst m. cbn. apply IH in M as [P ->]. split; auto. now constructor.
Qed.
Definition colons (target : list str) : nat := length (List.filter (has_char ":") target).
Lemma merge_count target : forall subs,
  match Nat.compare (length subs) (colons target) with
  | Eq => exists m, merge target subs = Ok m
  | Lt => merge target subs = Raise "IndexError"
  | Gt => merge target subs = Raise "Exception"
  end.
Proof.
  unfold colons. induction target as [|t r IH]; cbn; intros subs.
  - destruct subs; cbn; eauto.
  - destruct (has_char ":" t).
    + destruct subs as [|s q]; cbn; [reflexivity|]. specialize (IH q).
      destruct (Nat.compare (length q) (length (List.filter (has_char ":") r))); [destruct IH as (m & ->); cbn; eauto|now rewrite IH|now rewrite IH].
    + specialize (IH subs). destruct (Nat.compare (length subs) (length (List.filter (has_char ":") r))); [destruct IH as (m & ->); cbn; eauto|now rewrite IH|now rewrite IH].
Qed.

(* ---- the text of the subscripts ---- *)
Lemma drop_one (s : str) : drop_commas (s ++ L ",") = drop_commas s.
Proof. unfold drop_commas. rewrite rev_app_distr. reflexivity. Qed.
Lemma drop_end (s x : str) : x <> [] -> ~ In ","%char x -> drop_commas (s ++ x) = s ++ x.
Proof.
  intros N C. destruct (exists_last N) as (y & c & ->). unfold drop_commas. rewrite !rev_app_distr. cbn [rev app dropwhile].
  destruct (Ascii.eqb "," c) eqn:Q; [apply Ascii.eqb_eq in Q; subst c; elim C; apply in_or_app; right; now left|].
  change (rev (c :: rev y ++ rev s) = s ++ y ++ [c]). cbn [rev]. rewrite rev_app_distr, !rev_involutive. now rewrite <- app_assoc.
Qed.
Lemma concat_join (l : list str) : l <> [] -> List.concat (map (fun x => x ++ L ",") l) = join (L ",") l ++ L ",".
Proof.
  induction l as [|x l IH]; [easy|]. intros _. destruct l as [|y l]; [cbn; now rewrite app_nil_r|].
  cbn [map List.concat]. cbn [map List.concat] in IH. rewrite IH by discriminate. cbn [join]. now rewrite <- !app_assoc.
Qed.
Lemma join_last (l : list str) x sep : exists s, join sep (l ++ [x]) = s ++ x.
Proof.
  induction l as [|y l (s & IH)]; [exists []; reflexivity|]. cbn [app].
  destruct (l ++ [x]) as [|z r] eqn:Q; [now apply app_eq_nil in Q as [_ Q]|]. exists (y ++ sep ++ s). cbn [join] in *. rewrite IH. now rewrite <- !app_assoc.
Qed.
Lemma comma_subscripts (l : list str) : Forall (fun t => t <> [] /\ ~ In ","%char t) l -> comma_text l = L "(" ++ join (L ",") l ++ L ")".
Proof.
  intros F. unfold comma_text. destruct l as [|a l'] using rev_ind; [reflexivity|]. clear IHl'.
  rewrite concat_join by (intros Q; now apply app_eq_nil in Q as [_ Q]). rewrite app_assoc, drop_one.
  destruct (join_last l' a (L ",")) as (s & ->). apply Forall_app in F as [_ F]. inversion F as [|? ? [N C] _]; subst.
  rewrite (app_assoc (L "(")), drop_end by auto. now rewrite <- !app_assoc.
Qed.
