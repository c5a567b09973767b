(* NmProps.v: C173-C175, the metadata ccpp_prebuild reads (scripts/metadata_parser.py). *)
From Coq Require Import List Ascii String ZArith Bool Lia.
From Verif Require Import PyStr Base ReqModel ReqProofs CommonModel ParModel ParProofs ActModel ArModel ArProofs NmModel NmSpec NmProofs.
Import ListNotations.
Open Scope nat_scope. Open Scope list_scope.

(* C173: the metadata is exactly the variables of the table, in order, each under its standard name and once *)
Theorem C173_converted hs module table scheme md deps : read_new_metadata hs module table scheme = Ok (md, deps) ->
  exists vars c, of_table table (all_sections hs) vars /\ located module table scheme c /\ Forall2 (entry c) vars md /\ NoDup (map fst md).
Proof.
  unfold read_new_metadata. intros H. destruct (container_same module scheme table) as (c & C).
  pose proof (read_headers_inv _ _ _ c C hs [] [] _ _ H) as (vars & new & ds & T & -> & F & _ & N & _).
  exists vars, c. split; [exact T|]. split; [now apply container_located with (1 := C)|]. split; [exact F|]. apply N. constructor.
Qed.
Print Assumptions C173_converted.

Definition u_var : raw := mkRaw (L "x_wind") (L "zonal wind") (L "m s-1") (L "u") (L "Real") [L "ccpp_constant_one:n"] (L "kind_phys") (L "in") (Some (L "do_wind  .and. (n>0)")) (Some false) false.
Definition d_var : raw := mkRaw (L "state") (L "") (L "DDT") (L "st") (L "st_type") [] (L "st_type") (L "none") (Some (L ".TRUE.")) (Some false) true.
Definition nm_file : list header := [mkHead (L "lib") [L "a.F90"; L "/x/b.F90"] [mkSec (L "other") [u_var]]; mkHead (L "lib") [L "a.F90"; L "/x/b.F90"] [mkSec (L "mod") [u_var; d_var]]].
Example C173_example : read_new_metadata nm_file (L "mod") (L "mod") None =
  Ok ([(L "x_wind", mkPre (L "zonal wind") (L "m s-1") (mkPV (L "x_wind") (L "u") (L "real") (L "kind_phys") [L "ccpp_constant_one:n"] (L "in") (L "do_wind .and. (n>0)") (L "F") (L "MODULE_mod")));
       (L "state", mkPre (L "") (L "DDT") (mkPV (L "state") (L "st") (L "st_type") [] [] (L "none") (L "T") (L "F") (L "MODULE_mod")))],
      [L "lib/a.F90"; L "/x/b.F90"]).
Proof. vm_compute. reflexivity. Qed.
Example C173_example_type : exists md, read_new_metadata nm_file (L "mod") (L "other") None = Ok (md, [L "lib/a.F90"; L "/x/b.F90"]) /\
  Forall (fun e => pv_container (pre_var (snd e)) = L "MODULE_mod TYPE_other") md /\ List.length md = 1.
Proof. eexists. split; [vm_compute; reflexivity|]. split; [repeat constructor|reflexivity]. Qed.

(* C174: a table is accepted exactly if each of its variables may occur in it and no standard name occurs twice *)
Theorem C174_exact hs module table scheme vars : of_table table (all_sections hs) vars ->
  ((exists st, read_new_metadata hs module table scheme = Ok st) <->
   Forall (acceptable (match scheme with Some _ => true | None => false end) table) vars /\ NoDup (map r_std vars)).
Proof.
  unfold read_new_metadata. intros T. destruct (container_same module scheme table) as (c & C). split.
  - intros ([md deps] & H). pose proof (read_headers_inv _ _ _ c C hs [] [] _ _ H) as (v & new & ds & T2 & -> & F & A & N & _).
    apply (of_table_fun _ _ _ T) in T2 as ->. split; [exact A|]. specialize (N (NoDup_nil _)). cbn [app] in N.
    assert (E : map fst new = map r_std vars). { clear - F. induction F as [|r e l m [H _] F IH]; cbn [map]; [reflexivity|]. now rewrite H, IH. }
    now rewrite <- E.
  - intros [A N]. apply (read_headers_ok _ _ _ c C hs vars); auto.
Qed.
Print Assumptions C174_exact.
Theorem C174_sections_exist table hs : exists vars, of_table table (all_sections hs) vars.
Proof. apply of_table_some. Qed.
Print Assumptions C174_sections_exist.

Definition hle : raw := mkRaw (L "horizontal_loop_extent") [] (L "count") (L "im") (L "integer") [] [] (L "in") (Some (L ".true.")) (Some true) false.
Example C174_example_accepts : exists st, read_new_metadata [mkHead [] [] [mkSec (L "s_run") [hle]]] (L "m") (L "s_run") (Some (L "s")) = Ok st.
Proof. eexists. vm_compute. reflexivity. Qed.
Example C174_example_init : read_new_metadata [mkHead [] [] [mkSec (L "s_init") [hle]]] (L "m") (L "s_init") (Some (L "s")) = Raise "Exception".
Proof. vm_compute. reflexivity. Qed.
Example C174_example_twice : read_new_metadata [mkHead [] [] [mkSec (L "m") [u_var]; mkSec (L "m") [u_var]]] (L "m") (L "m") None = Raise "Exception".
Proof. vm_compute. reflexivity. Qed.

(* but an optional variable of the host is refused with a message that cannot be made: .lower() of True *)
Theorem C174_message_refuted : exists r module, r_optional r = Some true /\ acceptable true module r /\
  read_new_metadata [mkHead [] [] [mkSec module [r]]] module module None = Raise "AttributeError".
Proof.
  exists hle, (L "m"). split; [reflexivity|]. split; [|vm_compute; reflexivity]. apply (convert_iff true (L "m") (L "c")). eexists. vm_compute. reflexivity.
Qed.
Print Assumptions C174_message_refuted.

(* and since the parser writes each dimension n as ccpp_constant_one:n (metadata_table.py L919-L933) no dimension is ever refused,
   horizontal_dimension in a _run subroutine included *)
Theorem C174_dimension_refuted : forall r module table s, Forall (In ":"%char) (r_dims r) ->
  r_std r <> L "horizontal_loop_extent" -> r_std r <> L "horizontal_dimension" -> r_active r = Some (L ".true.") -> r_optional r = Some false ->
  exists st, read_new_metadata [mkHead [] [] [mkSec table [r]]] module table (Some s) = Ok st.
Proof.
  intros r module table s D N1 N2 A O.
  assert (X : forall n, existsb (Ascii.eqb ":") n = false -> ~ In n (r_dims r)).
  { intros n E I. rewrite Forall_forall in D. apply D in I. apply eq_true_false_abs with (2 := E). apply existsb_exists. exists ":"%char. split; [exact I|reflexivity]. }
  apply (C174_exact _ _ _ _ [r]).
  - unfold all_sections. cbn [map List.concat app h_sections]. change [r] with (s_vars (mkSec table [r]) ++ []). now constructor 3; [|constructor].
  - split; [|cbn [map]; constructor; [intros []|constructor]]. constructor; [|constructor]. split; [|split; [|split; [|split]]].
    + intros _ _. split; [exact N1|now apply X].
    + intros _ _. split; [exact N2|now apply X].
    + discriminate.
    + eexists. split; [exact A|]. split; [discriminate|reflexivity].
    + eexists. split; [exact O|auto].
Qed.
Print Assumptions C174_dimension_refuted.
Definition bad_dim : raw := mkRaw (L "t") [] (L "K") (L "t") (L "real") [L "ccpp_constant_one:horizontal_dimension"] [] (L "in") (Some (L ".true.")) (Some false) false.
Example C174_example_dimension : exists st, read_new_metadata [mkHead [] [] [mkSec (L "s_run") [bad_dim]]] (L "m") (L "s_run") (Some (L "s")) = Ok st.
Proof. apply C174_dimension_refuted; try discriminate; try reflexivity. constructor; [|constructor]. cbn. tauto. Qed.
Example C174_example_bare : read_new_metadata [mkHead [] [] [mkSec (L "s_run") [mkRaw (L "t") [] (L "K") (L "t") (L "real") [L "horizontal_dimension"] [] (L "in") (Some (L ".true.")) (Some false) false]]] (L "m") (L "s_run") (Some (L "s")) = Raise "Exception".
Proof. vm_compute. reflexivity. Qed.

(* C175: the dependencies are those of the files' headers, once for each section of the table, relative to the header's path *)
Theorem C175_dependencies hs module table scheme md deps : read_new_metadata hs module table scheme = Ok (md, deps) ->
  needed table (List.concat (map sections_of hs)) deps.
Proof.
  unfold read_new_metadata. intros H. destruct (container_same module scheme table) as (c & C).
  now pose proof (read_headers_inv _ _ _ c C hs [] [] _ _ H) as (vars & new & ds & T & _ & _ & _ & _ & -> & D).
Qed.
Print Assumptions C175_dependencies.
Example C175_example : exists md, read_new_metadata [mkHead (L "p/") [L "a"; L "/b"] [mkSec (L "t") []; mkSec (L "u") []]; mkHead [] [L "c"] [mkSec (L "t") []]] (L "m") (L "t") None = Ok (md, [L "p/a"; L "/b"; L "c"]).
Proof. eexists. vm_compute. reflexivity. Qed.
(* the same file is listed as often as the table occurs *)
Theorem C175_once_refuted : exists hs md deps, read_new_metadata hs (L "m") (L "t") None = Ok (md, deps) /\ ~ NoDup deps /\ Forall (fun h => NoDup (h_deps h)) hs /\ List.length hs = 1.
Proof.
  exists [mkHead [] [L "a"] [mkSec (L "t") []; mkSec (L "t") []]]. do 2 eexists. split; [vm_compute; reflexivity|]. split.
  - intros N. inversion N as [|? ? P _]. apply P. now left.
  - split; [|reflexivity]. constructor; [|constructor]. cbn. constructor; [intros []|constructor].
Qed.
Print Assumptions C175_once_refuted.
