(* SzModel.v: scripts/mkstatic.py, Group.write: the array sections a ccpp_prebuild cap
   passes to a scheme and the debug check of their sizes (L1346-1549).
   Modelled for one argument: its host variable is metadata_define[standard_name][0]; the
   subscripts of its local name come from extract_dimensions_from_local_name (ParModel.v).
   An exception is its class. *)
From Coq Require Import List Ascii String ZArith Bool.
From Verif Require Import PyStr ReqModel SelModel ParModel ArModel.
Import ListNotations.
Open Scope nat_scope. Open Scope list_scope.

(* common.py L23-L39 *)
Definition c_one := L "ccpp_constant_one".
Definition c_block_number := L "ccpp_block_number".
Definition c_loop_extent := L "ccpp_loop_extent".
Definition c_begin := L "horizontal_loop_begin".
Definition c_end := L "horizontal_loop_end".
Definition c_extent := L "horizontal_loop_extent".
Definition c_horizontal := L "horizontal_dimension".

(* a bound is a number or a variable of the host, L1378-L1390 and L1419-L1423; the bounds
   have been made lower case, L1377 *)
Definition bound (defs : pdefs) (b : str) : res str :=
  match py_int b with
  | Some _ => Ok b
  | None => match assoc defs b with Some v => Ok (pv_local v) | None => Raise "Exception" end
  end.
Definition local (defs : pdefs) (n : str) : res str :=
  match assoc defs n with Some v => Ok (pv_local v) | None => Raise "KeyError" end.
(* host_var_is_contiguous after the loop L1402-L1410; None: not set.  That the loop changes
   the variable dim of the outer loop has no effect: dim is not used after it *)
Fixpoint contiguous (hdims : list str) (acc : option bool) : res (option bool) :=
  match hdims with
  | [] => Ok acc
  | d :: r =>
      if negb (has_char ":" d) then Raise "Exception"
      else let p := map lower (split_on ":" d) in
           contiguous r (if mem c_horizontal p then Some true else if mem c_extent p then Some false else acc)
  end.
(* L1393-L1420: the horizontal bounds in the run phase and whether use_explicit_dimension
   is set; 'del' of a variable that is not set raises UnboundLocalError *)
Definition run_horizontal (defs : pdefs) (std : str) : res (str * str * bool) :=
  match assoc defs std with
  | None => Raise "KeyError"
  | Some h =>
      c <- contiguous (pv_dims h) None ;;
      match assoc defs c_begin, c with
      | Some _, None => Raise "UnboundLocalError"
      | Some b, Some true => e <- local defs c_end ;; Ok (pv_local b, e, true)
      | _, _ =>
          o <- local defs c_one ;;
          x <- local defs c_extent ;;
          match c with None => Raise "UnboundLocalError" | Some _ => Ok (o, x, false) end
      end
  end.
(* L1435-L1454: the horizontal dimensions that do not belong into the phase *)
Definition misplaced (run : bool) (dims : list str) (d0 : str) : bool :=
  if run then
    if str_eqb (nth 1 dims []) c_extent && str_eqb d0 [] then true
    else mem c_begin dims || mem c_end dims || mem c_horizontal dims
  else (str_eqb (nth 1 dims []) c_horizontal && str_eqb d0 []) || (mem c_begin dims || mem c_end dims || mem c_loop_extent dims).
(* L1356-L1472, one dimension: the text of its size and its subscript *)
Definition dim_text (run : bool) (defs : pdefs) (v : pvar) (d : str) : res (str * str) :=
  let explicit := negb (str_eqb (pv_type v) (L "character")) in
  if str_eqb d c_block_number then Raise "Exception"
  else if negb (has_char ":" d) then Raise "Exception"
  else
    let dims := map lower (split_on ":" d) in
    d0 <- bound defs (nth 0 dims []) ;;
    r <- (let b := nth 1 dims [] in
          match py_int b with
          | Some _ => Ok (d0, b, explicit)
          | None =>
              if run && str_eqb b c_extent then
                h <- run_horizontal defs (pv_std v) ;;
                Ok (fst (fst h), snd (fst h), if snd h then true else explicit)
              else match assoc defs b with Some x => Ok (d0, pv_local x, explicit) | None => Raise "Exception" end
          end) ;;
    let d0 := fst (fst r) in
    let d1 := snd (fst r) in
    if misplaced run dims d0 then Raise "Exception"
    else
      let same := str_eqb d0 d1 in
      Ok (if same then L "1" else L "(" ++ d1 ++ L "-" ++ d0 ++ L "+1)",
          if snd r then if same then d1 else d0 ++ L ":" ++ d1 else L ":").
Definition dim_texts (run : bool) (defs : pdefs) (v : pvar) : res (list (str * str)) := map_r (dim_text run defs v) (pv_dims v).

(* L1491-L1502: the subscripts of the host's local name, the sections in their places; the
   second list is that of dim_string_allocate *)
Fixpoint merge (target subs : list str) : res (list str * list str) :=
  match target with
  | [] => match subs with [] => Ok ([], []) | _ => Raise "Exception" end
  | t :: r =>
      if has_char ":" t then
        match subs with
        | [] => Raise "IndexError"
        | s :: q => m <- merge r q ;; Ok (s :: fst m, s :: snd m)
        end
      else m <- merge r subs ;; Ok (t :: fst m, snd m)
  end.
(* dim_string.rstrip(',') *)
Definition drop_commas (s : str) : str := rev (dropwhile (Ascii.eqb ",") (rev s)).
Definition comma_text (l : list str) : str := drop_commas (L "(" ++ List.concat (map (fun x => x ++ L ",") l)) ++ L ")".
(* L1475-L1517: dim_string, dim_string_allocate and var_size_expected; [target] and
   [target_text] are the subscripts of the host's local name and their text *)
Definition strings (run : bool) (defs : pdefs) (v : pvar) (target : list str) (target_text : str) : res (str * str * str) :=
  match pv_dims v with
  | [] => Ok (match target with [] => [] | _ => target_text end, [], L "1")
  | _ =>
      l <- dim_texts run defs v ;;
      let size := L "(" ++ join (L "*") (map fst l) ++ L ")" in
      match target with
      | [] => let s := L "(" ++ join (L ",") (map snd l) ++ L ")" in Ok (s, s, size)
      | _ => if length target <? length l then Raise "Exception"
             else m <- merge target (map snd l) ;; Ok (comma_text (fst m), comma_text (snd m), size)
      end
  end.
(* p in s *)
Fixpoint contains (p s : str) : bool := startswith p s || match s with [] => false | _ :: t => contains p t end.
(* L1528-L1549: what the debug check compares: the argument of size and the expected
   number; None: no check.  [name] is local_vars[...]['name'], [block] the local name of
   the block number; the test of L1530-L1532 is for phases other than run *)
Definition debug_check (debug run : bool) (v : pvar) (name block target_text dim_string expected : str) : option (str * str) :=
  if negb debug then None
  else if negb run && (contains block name && mem (c_one ++ L ":" ++ c_horizontal) (pv_dims v)) then None
  else match pv_dims v with
       | [] => None
       | _ => if str_eqb (pv_type v) (L "character") then None
              else Some ((match target_text with [] => name | _ => replace target_text [] name end) ++ dim_string, expected)
       end.
