(* Local names of host variables in ccpp_prebuild: C142, C143. *)
From Coq Require Import List Ascii String ZArith Bool Lia Arith.
From Verif Require Import PyStr SelModel CheckProofs LineProofs ActProofs ParModel ParSpec ParProofs.
Import ListNotations.
Open Scope nat_scope. Open Scope list_scope.

(* ---------------------------------------------------------------- C142 *)
(* For every reference, however its subscripts are nested: the parent is the
   variable the reference starts with, the indices are the variables that occur in
   subscripts at any depth, each once. *)
Theorem C142_parents_and_indices : forall s b i, ref s b i ->
  exists js, parents_and_indices s = Ok (b, js) /\ NoDup js /\ forall x, In x js <-> In x i.
Proof.
  intros s b i R. destruct (proj1 refs_forests s b i R) as (N & f & O & T & B & SEP & D).
  destruct (proj1 ref_index_names s b i R) as [_ NI].
  destruct (peel_forest (length s) f [] O) as (J & E & Q); [rewrite <- T; apply groups_len|]. rewrite T in E. cbn [app] in E.
  unfold parents_and_indices. rewrite E. cbn [bind fst snd].
  assert (P : (if has_char "%"%char (flat f) then before_char "%"%char (flat f) else flat f) = b).
  { destruct B as (t & EB & TB). rewrite EB. destruct (name_words b N) as [_ W]. assert (X : ~ In "%"%char b) by now apply words_no.
    destruct TB as [-> | (u & ->)].
    - rewrite app_nil_r. now rewrite (proj2 (has_char_out _ _) X).
    - rewrite before_char_at; auto. assert (H : has_char "%"%char (b ++ "%"%char :: u) = true) by (apply has_char_in, in_or_app; right; now left). now rewrite H. }
  assert (ST : map strip (dedup J) = dedup J).
  { rewrite <- (map_id (dedup J)) at 2. apply map_ext_in. intros x I. apply dedup_in, Q, D in I. rewrite Forall_forall in NI.
    apply words_strip. now apply name_words, NI. }
  rewrite P, ST, words_strip by now apply name_words. exists (dedup J). split; auto. split; [apply dedup_nodup|].
  intros x. rewrite dedup_in, Q. apply D.
Qed.
Print Assumptions C142_parents_and_indices.
Ltac name_tac := eexists; eexists; split; [reflexivity|split; [reflexivity|repeat constructor]].
Ltac num_tac := split; [discriminate|repeat constructor].
(* the example of the documentation of the function *)
Example C142_example :
  ref (L "Atm(mytile)%q(:,1:5,Atm2(mytile2)%graupel)") (L "Atm") [L "mytile"; L "Atm2"; L "mytile2"] /\
  parents_and_indices (L "Atm(mytile)%q(:,1:5,Atm2(mytile2)%graupel)") = Ok (L "Atm", [L "mytile"; L "mytile2"; L "Atm2"]).
Proof.
  split; [|vm_compute; reflexivity].
  apply (ref_more (L "Atm(mytile)") (L "Atm") [L "mytile"] (L "q(:,1:5,Atm2(mytile2)%graupel)") (L "q") [L "Atm2"; L "mytile2"]).
  - apply (comp_subs (L "Atm") (L "mytile") [L "mytile"]); [name_tac|]. apply subs_one, sub_one, (part_ref _ (L "mytile") []), ref_one, comp_name. name_tac.
  - apply ref_one. apply (comp_subs (L "q") (L ":,1:5,Atm2(mytile2)%graupel") [L "Atm2"; L "mytile2"]); [name_tac|].
    apply (subs_more (L ":") [] (L "1:5,Atm2(mytile2)%graupel") [L "Atm2"; L "mytile2"]).
    { apply (sub_more [] [] [] []); [constructor|]. apply sub_one. constructor. }
    apply (subs_more (L "1:5") [] (L "Atm2(mytile2)%graupel") [L "Atm2"; L "mytile2"]).
    { apply (sub_more (L "1") [] (L "5") []); [constructor; num_tac|]. apply sub_one. constructor. num_tac. }
    apply subs_one, sub_one, (part_ref _ (L "Atm2") [L "mytile2"]).
    apply (ref_more (L "Atm2(mytile2)") (L "Atm2") [L "mytile2"] (L "graupel") (L "graupel") []).
    + apply (comp_subs (L "Atm2") (L "mytile2") [L "mytile2"]); [name_tac|]. apply subs_one, sub_one, (part_ref _ (L "mytile2") []), ref_one, comp_name. name_tac.
    + apply ref_one, comp_name. name_tac.
Qed.

(* ---------------------------------------------------------------- C143 *)
Lemma last_walk f : fok f -> forall d r acc, (0 <= d)%Z -> ((0 < d)%Z \/ ~ In "%"%char (flat f)) ->
  last_component (rev (ftext f) ++ r) acc d = last_component r (ftext f ++ acc) d.
Proof.
  induction f as [|c f IH|g IHg f IHf]; intros O d r acc D H; [reflexivity| |].
  - cbn [ftext rev flat In] in *. destruct O as [[A B] O]. rewrite <- app_assoc, IH; auto; [|destruct H; auto; right; intros X; apply H; now right].
    cbn [app last_component]. apply Ascii.eqb_neq in A, B. rewrite A, B.
    destruct (Ascii.eqb_spec c "%"%char) as [->|]; cbn [andb]; auto. destruct (Z.eqb_spec d 0); auto. destruct H; [lia|]. exfalso. apply H. now left.
  - cbn [ftext flat] in *. destruct O as [Og Of].
    replace (rev ("("%char :: ftext g ++ ")"%char :: ftext f) ++ r) with (rev (ftext f) ++ ")"%char :: rev (ftext g) ++ "("%char :: r).
    2:{ cbn [rev]. rewrite rev_app_distr. cbn [rev]. now rewrite <- !app_assoc. }
    rewrite IHf; auto. cbn [last_component]. change (Ascii.eqb ")" ")") with true. cbv iota.
    rewrite IHg; auto; [|lia|left; lia]. cbn [last_component]. change (Ascii.eqb "(" ")") with false. change (Ascii.eqb "(" "(") with true. cbv iota.
    replace (d + 1 - 1)%Z with d by lia. f_equal. cbn [app]. now rewrite <- app_assoc.
Qed.
Lemma component_comp c b i : comp c b i -> component c = c /\ forall p, component (p ++ "%"%char :: c) = c.
Proof.
  intros R. destruct (proj1 (proj2 refs_forests) c b i R) as (N & f & O & T & F & _).
  assert (NP : ~ In "%"%char (flat f)) by (rewrite F; apply words_no; [now apply name_words|reflexivity]). split.
  - unfold component. destruct (has_char "%"%char c); auto. pose proof (last_walk f O 0 [] [] (Z.le_refl 0) (or_intror NP)) as E.
    rewrite app_nil_r, T in E. now rewrite E.
  - intros p. unfold component. assert (H : has_char "%"%char (p ++ "%"%char :: c) = true) by (apply has_char_in, in_or_app; right; now left). rewrite H.
    replace (rev (p ++ "%"%char :: c)) with (rev (ftext f) ++ "%"%char :: rev p) by (rewrite T, rev_app_distr; cbn [rev]; now rewrite <- app_assoc).
    rewrite last_walk; auto; [|lia]. cbn. now rewrite app_nil_r.
Qed.
Lemma walk_comma (d : str) : ~ In ","%char d -> forall dim rest, walk_dims (d ++ ","%char :: rest) dim = (dim ++ d) :: walk_dims rest [].
Proof.
  induction d as [|c d IH]; intros N dim rest; cbn [app walk_dims].
  - now rewrite app_nil_r.
  - destruct (Ascii.eqb_spec c ","%char); [subst; exfalso; apply N; now left|].
    destruct (d ++ ","%char :: rest) as [|e s] eqn:E; [destruct d; discriminate|]. rewrite <- E, IH; [|intros X; apply N; now right].
    now rewrite <- app_assoc.
Qed.
Lemma walk_end (d : str) : ~ In ","%char d -> forall dim, dim ++ d <> [] -> walk_dims (d ++ [")"%char]) dim = [dim ++ d].
Proof.
  induction d as [|c d IH]; intros N dim H; cbn [app walk_dims].
  - change (Ascii.eqb ")" ",") with false. cbv iota. rewrite app_nil_r in *. destruct dim; [now contradiction H|reflexivity].
  - destruct (Ascii.eqb_spec c ","%char); [subst; exfalso; apply N; now left|].
    destruct (d ++ [")"%char]) as [|e s] eqn:E; [destruct d; discriminate|]. rewrite IH.
    + now rewrite <- app_assoc.
    + intros X; apply N; now right.
    + destruct dim; discriminate.
Qed.
Lemma walk_join ds : ds <> [] -> Forall (fun d => ~ In ","%char d) ds -> List.last ds [] <> [] ->
  walk_dims (join (L ",") ds ++ [")"%char]) [] = ds.
Proof.
  intros N F. induction F as [|d ds D F IH]; [congruence|]. intros LS. destruct ds as [|e ds].
  - cbn [join]. cbn in LS. now rewrite walk_end.
  - rewrite join_cons2, <- app_assoc. cbn [L list_ascii_of_string app]. rewrite walk_comma; auto. cbn [app]. f_equal.
    apply IH; [discriminate|exact LS].
Qed.
Lemma from_char_at c (a : str) b : ~ In c a -> from_char c (a ++ c :: b) = c :: b.
Proof.
  induction a as [|d a IH]; cbn; intros N; [now rewrite Ascii.eqb_refl|]. destruct (Ascii.eqb_spec c d); [subst; exfalso; auto|]. auto.
Qed.
Lemma dims_comp n s i : name n -> subs s i -> forall p, 
  let c := n ++ "("%char :: s ++ [")"%char] in
  (forall x, x = c \/ x = p ++ "%"%char :: c -> dimensions_of x = (walk_dims (s ++ [")"%char]) [], "("%char :: s ++ [")"%char])).
Proof.
  intros N SS p c x X. destruct (component_comp c n i (comp_subs n s i N SS)) as [C1 C2].
  assert (E : component x = c) by (destruct X as [-> | ->]; auto). unfold dimensions_of. rewrite E.
  assert (H : has_char "("%char c = true) by (apply has_char_in, in_or_app; right; now left). rewrite H.
  assert (PP : paren_part c = "("%char :: s ++ [")"%char]).
  { unfold paren_part, c. rewrite from_char_at; [|apply words_no; [now apply name_words|reflexivity]].
    replace (rev ("("%char :: s ++ [")"%char])) with (")"%char :: rev s ++ ["("%char]) by (cbn [rev]; rewrite rev_app_distr; reflexivity).
    cbn [from_char]. change (Ascii.eqb ")" ")") with true. cbv iota. cbn [rev]. rewrite rev_app_distr, rev_involutive. reflexivity. }
  rewrite PP. reflexivity.
Qed.
(* The subscripts of the last component of a local name -- the component itself, or
   after any parent -- are found, when no subscript contains a comma. *)
Theorem C143_subscripts_found_partial : forall n ds i p, name n -> subs (join (L ",") ds) i ->
  ds <> [] -> Forall (fun d => ~ In ","%char d) ds -> List.last ds [] <> [] ->
  let c := n ++ "("%char :: join (L ",") ds ++ [")"%char] in
  dimensions_of c = (ds, "("%char :: join (L ",") ds ++ [")"%char]) /\
  dimensions_of (p ++ "%"%char :: c) = (ds, "("%char :: join (L ",") ds ++ [")"%char]).
Proof.
  intros n ds i p N SS NE F LS c. split; unfold c; rewrite (dims_comp n (join (L ",") ds) i N SS p); auto; now rewrite walk_join.
Qed.
Print Assumptions C143_subscripts_found_partial.
Theorem C143_no_subscripts_partial : forall n p, name n -> dimensions_of n = ([], []) /\ dimensions_of (p ++ "%"%char :: n) = ([], []).
Proof.
  intros n p N. destruct (component_comp n n [] (comp_name n N)) as [C1 C2]. unfold dimensions_of. rewrite C1, C2.
  rewrite (proj2 (has_char_out "("%char n)); auto. apply words_no; [now apply name_words|reflexivity].
Qed.
Print Assumptions C143_no_subscripts_partial.
Example C143_example : dimensions_of (L "Atm(m)%q(:,:,Atm2(m2)%graupel)") = ([L ":"; L ":"; L "Atm2(m2)%graupel"], L "(:,:,Atm2(m2)%graupel)") /\
  dimensions_of (L "Atm(i,j)%ps") = ([], []).
Proof. split; vm_compute; reflexivity. Qed.

(* A subscript with two subscripts of its own is cut in two: every comma separates,
   whatever parentheses it stands in. *)
Theorem C143_nested_commas_refuted : forall n a b r s i, name n ->
  ~ In ","%char a -> ~ In ","%char b -> s = a ++ ","%char :: b ++ r -> b <> [] ->
  (r = [] \/ exists q, r = ","%char :: q) -> subs s i -> 
  exists ds, fst (dimensions_of (n ++ "("%char :: s ++ [")"%char])) = a :: b :: ds.
Proof.
  intros n a b r s i N A B -> NB R SS. rewrite (dims_comp n _ i N SS []); auto. cbn [fst]. rewrite <- !app_assoc. cbn [app]. rewrite <- app_assoc. rewrite walk_comma; auto.
  destruct R as [-> | (q & ->)].
  - cbn [app]. rewrite walk_end; auto. exists []. reflexivity.
  - cbn [app]. rewrite walk_comma; auto. eexists. reflexivity.
Qed.
Print Assumptions C143_nested_commas_refuted.
Example C143_nested_example :
  fst (dimensions_of (L "q(:,idx(i,j))")) = [L ":"; L "idx(i"; L "j)"] /\
  subs (L "idx(i,j)") [L "idx"; L "i"; L "j"] /\
  subscripts [L ":"; L "idx(i,j)"] [L "1:n"] = Ok (L "(1:n,idx(i,j))", L "(1:n)").
Proof.
  split; [vm_compute; reflexivity|]. split; [|vm_compute; reflexivity].
  apply subs_one, sub_one, (part_ref _ (L "idx") [L "i"; L "j"]), ref_one, (comp_subs (L "idx") (L "i,j")); [name_tac|].
  apply (subs_more (L "i") [L "i"] (L "j") [L "j"]).
  - apply sub_one, (part_ref _ (L "i") []), ref_one, comp_name. name_tac.
  - apply subs_one, sub_one, (part_ref _ (L "j") []), ref_one, comp_name. name_tac.
Qed.

Lemma merge_spec dims : forall subs a b r, merge_dims dims subs = Ok (a, b, r) <-> exists used, subs = used ++ r /\ merged dims used a /\ b = used.
Proof.
  induction dims as [|d dims IH]; intros subs a b r; cbn [merge_dims].
  - split; [intros [= <- <- <-]; exists []; repeat split; constructor|]. intros (u & -> & M & ->). inversion M; subst. reflexivity.
  - destruct (has_char ":"%char d) eqn:H.
    + apply has_char_in in H. destruct subs as [|x subs].
      * split; [discriminate|]. intros (u & E & M & _). symmetry in E. apply app_eq_nil in E as [-> ->]. inversion M; subst. contradiction.
      * split.
        -- intros E. apply bind_ok in E as ([[a' b'] r'] & E & [= <- <- <-]). apply IH in E as (u & -> & M & ->). exists (x :: u). repeat split. now constructor.
        -- intros (u & E & M & ->). inversion M as [|d' ds y xs out I M'|]; subst; [|contradiction]. injection E as <- ->.
           rewrite (proj2 (IH (xs ++ r) out xs r)); [reflexivity|]. eauto.
    + apply has_char_out in H. split.
      * intros E. apply bind_ok in E as ([[a' b'] r'] & E & [= <- <- <-]). apply IH in E as (u & -> & M & ->). exists u. repeat split. now constructor.
      * intros (u & -> & M & ->). inversion M as [|d' ds y xs out I M'|d' ds xs out I M']; subst; [contradiction|].
        rewrite (proj2 (IH (u ++ r) out u r)); [reflexivity|]. eauto.
Qed.
Lemma merged_length ds xs out : merged ds xs out -> length xs <= length ds.
Proof. induction 1; cbn; lia. Qed.
Lemma merged_fun ds xs out : merged ds xs out -> forall out', merged ds xs out' -> out' = out.
Proof. induction 1; intros out' M; inversion M; subst; auto; try contradiction; f_equal; auto. Qed.
(* The actual argument: its sections are the ones the scheme asks for, in order, its
   indices are those of the local name; a temporary copy has only the sections.
   Generation fails exactly when the numbers of sections differ. *)
Theorem C143_actual_subscripts_partial : forall dims xs a b, dims <> [] ->
  (subscripts dims xs = Ok (a, b) <-> exists out, merged dims xs out /\ a = enclose out /\ b = enclose xs).
Proof.
  intros dims xs a b N. destruct dims as [|d dims]; [congruence|]. unfold subscripts. split.
  - destruct (length (d :: dims) <? length xs)%nat; [discriminate|]. intros E. apply bind_ok in E as ([[o u] r] & E & E2). cbn [fst snd] in E2.
    destruct r; [|discriminate]. injection E2 as <- <-. apply merge_spec in E as (w & -> & M & ->). exists o. rewrite app_nil_r. auto.
  - intros (out & M & -> & ->). assert (H : (length (d :: dims) <? length xs)%nat = false) by (apply Nat.ltb_ge; eapply merged_length; eauto). rewrite H.
    rewrite (proj2 (merge_spec (d :: dims) xs out xs [])); [reflexivity|]. exists xs. rewrite app_nil_r. auto.
Qed.
Print Assumptions C143_actual_subscripts_partial.
Example C143_actual_example : subscripts [L ":"; L "n"; L "1:5"] [L "1:im"; L "1:levs"] = Ok (L "(1:im,n,1:levs)", L "(1:im,1:levs)") /\
  merged [L ":"; L "n"; L "1:5"] [L "1:im"; L "1:levs"] [L "1:im"; L "n"; L "1:levs"].
Proof.
  split; [vm_compute; reflexivity|]. apply merged_section; [cbn; auto|]. apply merged_index; [cbn; intuition discriminate|].
  apply merged_section; [cbn; auto|]. constructor.
Qed.
