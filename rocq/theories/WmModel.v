(* WmModel.v: scripts/ccpp_fortran_to_metadata.py, write_metadata_file (L85-162), with
   unique_standard_name and _StdNameCounter of scripts/parse_tools/parse_source.py (L14-36).
   The file is the list of its lines: every write that ends with os.linesep ends a line; the
   separator is one line.  A variable is what its get_prop_value gives for local_name,
   standard_name, units, type, kind and intent, and its list of dimensions.  The counter of
   unique_standard_name is passed along.  Left out: opening the file. *)
From Coq Require Import List Ascii String Bool.
From Verif Require Import PyStr PyNum.
Import ListNotations.
Open Scope nat_scope. Open Scope list_scope.

Record wvar := mkWv { w_local : str; w_std : str; w_units : str; w_type : str; w_kind : str; w_dims : list str; w_intent : str }.
Record wsec := mkWs { ws_title : str; ws_type : str; ws_vars : list wvar }.
Record wtab := mkWt { wt_name : str; wt_type : str; wt_secs : list wsec }.
Definition nil_str (s : str) : bool := match s with [] => true | _ => false end.
(* lname_dict, the newest entry first *)
Definition names := list (str * str).
Definition known (ns : names) (b : str) : option str := match List.find (fun x => str_eqb (fst x) b) ns with Some x => Some (snd x) | None => None end.
(* unique_standard_name *)
Definition unique (n : nat) : str := L "enter_standard_name_" ++ str_of_nat (Datatypes.S n).
(* L139-149 *)
Definition bound (ns : names) (n : nat) (b : str) : str * nat :=
  match (if nil_str b then None else known ns b) with Some s => (s, n) | None => (unique n, Datatypes.S n) end.
Fixpoint bounds (ns : names) (n : nat) (bs : list str) : list str * nat :=
  match bs with [] => ([], n) | b :: r => let (s, k) := bound ns n b in let (l, m) := bounds ns k r in (s :: l, m) end.
Fixpoint dims (ns : names) (n : nat) (ds : list str) : list str * nat :=
  match ds with [] => ([], n) | d :: r => let (s, k) := bounds ns n (split_on ":" d) in let (l, m) := dims ns k r in (join (L ":") s :: l, m) end.
(* L126-135 *)
Definition type_line (v : wvar) : str :=
  L "  type = " ++ (if str_eqb (w_type v) (w_kind v) then w_type v
                    else lower (w_type v) ++ (if nil_str (w_kind v) then [] else L " | kind = " ++ lower (w_kind v))).
(* L113-161, the lines after the name of the variable *)
Definition var_body (htype : str) (v : wvar) (ds : list str) : list str :=
  [L "  standard_name = " ++ w_std v; L "  units = " ++ (if nil_str (w_units v) then L "enter_units" else w_units v); type_line v;
   L "  dimensions = (" ++ join (L ",") ds ++ L ")"] ++ (if str_eqb htype (L "scheme") then [L "  intent = " ++ w_intent v] else []).
Fixpoint write_vars (htype : str) (ns : names) (n : nat) (vs : list wvar) : list str * nat :=
  match vs with
  | [] => ([], n)
  | v :: r =>
      let ns' := (w_local v, w_std v) :: ns in
      let (ds, k) := dims ns' n (w_dims v) in
      let (rest, m) := write_vars htype ns' k r in
      (((L "[ " ++ w_local v ++ L " ]") :: var_body htype v ds) ++ rest, m)
  end.
(* L106-112 *)
Fixpoint write_secs (hs : list str) (n : nat) (ss : list wsec) : list str * nat :=
  match ss with
  | [] => ([], n)
  | s :: r =>
      let (vl, k) := write_vars (ws_type s) [(L "1", L "ccpp_constant_one")] n (ws_vars s) in
      let (rest, m) := write_secs hs k r in
      (hs ++ [L "[ccpp-arg-table]"; L "  name  = " ++ ws_title s; L "  type  = " ++ ws_type s] ++ vl ++ rest, m)
  end.
(* L93-105; [hs] is header_sep, [last] is table_name *)
Fixpoint write_tables (sep : str) (hs : list str) (last : str) (n : nat) (ts : list wtab) : list str * nat :=
  match ts with
  | [] => ([], n)
  | t :: r =>
      let new := nil_str last || negb (str_eqb last (wt_name t)) in
      let hs' := if new then [sep] else hs in
      let (b, k) := write_secs hs' n (wt_secs t) in
      let (rest, m) := write_tables sep hs' (if new then wt_name t else last) k r in
      ((if new then hs ++ [L "[ccpp-table-properties]"; L "  name = " ++ wt_name t; L "  type = " ++ wt_type t] else []) ++ b ++ rest, m)
  end.
Definition write_metadata_file (sep : str) (n : nat) (ts : list wtab) : list str := fst (write_tables sep [] [] n ts).
