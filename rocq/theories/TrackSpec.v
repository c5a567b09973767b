(* TrackSpec.v: which lines a variable's track through a suite has. *)
From Verif Require Import PyStr TrackModel.
Open Scope nat_scope.
Open Scope list_scope.

(* the schemes a group calls, in order: each subcycle's as often as its count says *)
Inductive group_calls : list subcyc -> list str -> Prop :=
| gc_nil : group_calls [] []
| gc_cons sc r n s l : sc_loop sc = Some s -> py_int s = Some n -> group_calls r l ->
    group_calls (sc :: r) (List.concat (List.repeat (sc_schemes sc) (Z.to_nat n)) ++ l).
(* the metadata file of a scheme: the last that describes it *)
Definition file_of (files : list mfile) (scheme : str) (f : mfile) : Prop :=
  exists pre post, files = pre ++ f :: post /\ In scheme (mf_schemes f) /\
    forall g, In g post -> ~ In scheme (mf_schemes g).
(* the sections that list var, with the intent of its first entry *)
Inductive hits (var : str) : list section -> list (str * str) -> Prop :=
| hits_nil : hits var [] []
| hits_no s r es : ~ In var (map fst (se_vars s)) -> hits var r es -> hits var (s :: r) es
| hits_yes s r es pre i post : se_vars s = pre ++ (var, i) :: post -> ~ In var (map fst pre) ->
    hits var r es -> hits var (s :: r) ((se_title s, i) :: es).
Definition sections_of (f : mfile) (scheme : str) : list section :=
  List.concat (map mt_sections (List.filter (fun t => str_eqb (mt_name t) scheme) (mf_tables f))).
Inductive tracked (files : list mfile) (var : str) : list str -> list (str * str) -> Prop :=
| tr_nil : tracked files var [] []
| tr_cons s calls f es es' : file_of files s f -> hits var (sections_of f s) es -> tracked files var calls es' ->
    tracked files var (s :: calls) (es ++ es').
(* a suite-wide init or finalize element, as opposed to a group *)
Definition suite_wide (g : gelem) : Prop := ge_tag g = L "init" \/ ge_tag g = L "finalize".
