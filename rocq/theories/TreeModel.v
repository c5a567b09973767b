(* TreeModel.v: model of the call tree of a suite: scripts/suite_objects.py
   (new_suite_object, SuiteObject.add_part, schemes, part, has_item, Subcycle, TimeSplit,
   VerticalLoop, Group.__init__, the write methods as far as the nesting of calls goes)
   and scripts/ccpp_suite.py (Suite.parse, the schemes of the phase groups in
   Suite.analyze).
   Left out: variables (C27-C35), the text around the calls (C10, C11), XML reading. *)
From Verif Require Import PyStr ReqModel.
From Coq Require Import ZArith Lia.
Open Scope nat_scope.
Open Scope list_scope.

(* the elements of a suite definition file *)
Inductive xml :=
| XScheme (text : str)
| XSubcycle (name loop : option str) (items : list xml)
| XTime (items : list xml)
| XOther (tag : str).
(* the suite objects: Scheme L1122, Subcycle L1976, TimeSplit L2046, VerticalLoop L1878 *)
Inductive part :=
| PScheme (name : str)
| PSub (name : option str) (loop : str) (ps : list part)
| PTime (ps : list part)
| PVert (index dim : str) (ps : list part).

(* Subcycle.loop, suite_objects.py L2033-2042: the property reads itself before anything
   else; [limit] is what is left of Python's recursion limit, [find] stands for
   find_variable and the local name of what it finds *)
Fixpoint loop_property (limit : nat) (find : str -> option str) : res str :=
  match limit with
  | 0 => Raise "RecursionError"
  | S n => l <- loop_property n find ;; match find l with Some lname => Ok lname | None => Raise "CCPPError" end
  end.

(* new_suite_object L56-71; Subcycle.__init__ L1979-2000: an extent that is no integer
   is looked up by way of the property; TimeSplit.__init__ L2052-2057.  add_part (L240)
   with replace=False: the new object is not a member yet (object identity,
   metavar.py L1951) and needs_vertical is None, so it is appended *)
Section Build.
Variables (limit : nat) (find : str -> option str).
Fixpoint new_suite_object (x : xml) : res part :=
  match x with
  | XScheme t => Ok (PScheme t)
  | XSubcycle name loop items =>
      let extent := match loop with Some l => l | None => L "1" end in
      match py_int extent with
      | None => _ <- loop_property limit find ;; Raise "AttributeError"
      | Some _ =>
          ps <- (fix all (l : list xml) : res (list part) :=
                   match l with [] => Ok [] | y :: r => p <- new_suite_object y ;; q <- all r ;; Ok (p :: q) end) items ;;
          Ok (PSub name extent ps)
      end
  | XTime items =>
      ps <- (fix all (l : list xml) : res (list part) :=
               match l with [] => Ok [] | y :: r => p <- new_suite_object y ;; q <- all r ;; Ok (p :: q) end) items ;;
      Ok (PTime ps)
  | XOther _ => Raise "CCPPError: Unknown CCPP suite element type"
  end.
Fixpoint new_parts (l : list xml) : res (list part) :=
  match l with [] => Ok [] | y :: r => p <- new_suite_object y ;; q <- new_parts r ;; Ok (p :: q) end.
(* Group.__init__ L2146-2176; [run]: the group is in the run phase *)
Definition is_split (x : xml) : bool :=
  match x with XTime _ => true | XOther t => str_eqb t (L "process_split") | _ => false end.
Definition new_group (run : bool) (items : list xml) : res (list part) :=
  ps <- new_parts items ;;
  Ok (if run && negb (match items with x :: _ => is_split x | [] => false end) then [PTime ps] else ps).
End Build.

(* schemes: SuiteObject L324-330, Scheme L1842-1844 *)
Fixpoint schemes (p : part) : list str :=
  match p with
  | PScheme n => [n]
  | PSub _ _ ps | PTime ps | PVert _ _ ps => flat_map schemes ps
  end.
Definition group_schemes (ps : list part) : list str := flat_map schemes ps.

(* SuiteObject.part, L969-982: [index] is a Python index; with [error] *)
Definition py_index {A} (l : list A) (i : Z) : res A :=
  let j := (if i <? 0 then i + Z.of_nat (length l) else i)%Z in
  if (j <? 0)%Z then Raise "IndexError"
  else match nth_error l (Z.to_nat j) with Some x => Ok x | None => Raise "IndexError" end.
Definition part_at (ps : list part) (i : Z) (error : bool) : res (option part) :=
  let plen := Z.of_nat (length ps) in
  if ((0 <=? i) && (i <? plen) || (Z.abs i <=? plen))%Z then p <- py_index ps i ;; Ok (Some p)
  else if error then Raise "ParseInternalError" else Ok None.

(* ==== analysis: which schemes end up in a vertical loop ==== *)
(* CCPP_LOOP_DIM_SUBSTS, var_props.py L46-51; VarDictionary.find_loop_dim_from_index,
   metavar.py L1997-2007; VerticalLoop.__init__ L1885-1897 keeps what follows the colon *)
Definition loop_dims : list (str * str) :=
  [(L "ccpp_constant_one:horizontal_dimension", L "horizontal_loop_begin:horizontal_loop_end");
   (L "ccpp_constant_one:vertical_layer_dimension", L "vertical_layer_index");
   (L "ccpp_constant_one:vertical_interface_dimension", L "vertical_interface_index")].
Definition dim_from_index (index : str) : option str :=
  match List.find (fun kv => str_eqb index (snd kv)) loop_dims with
  | None => None
  | Some (d, _) => Some (nth 1 (split_on ":" d) d)
  end.
(* Scheme.analyze, L1174-1296.  The answer of matching its variables (C33, C34) is taken
   from [o]: the missing vertical index, or None.  With a missing index, add_part
   (L262-302) with replace=True puts the scheme in a VerticalLoop of its own at its place:
   the last part of the parent, which the code looks at first, is the scheme itself or
   not yet analysed, so it is no VerticalLoop.  Then the loop is analysed (L1918-1957),
   which needs a variable for its dimension ([local_dim]) and analyses the scheme again;
   if an index is missing again, nothing resets needs_vertical and the analysis of the
   loop calls itself for ever *)
Section Analyze.
Variable local_dim : str -> option str.
Definition ask (o : list (option str)) : option str * list (option str) :=
  match o with [] => (None, []) | a :: r => (a, r) end.
Definition analyze_scheme (n : str) (o : list (option str)) : res (part * list (option str)) :=
  match ask o with
  | (None, o') => Ok (PScheme n, o')
  | (Some index, o') =>
      match dim_from_index index with
      | None => Raise "ParseInternalError: No VerticalLoop dimension name"
      | Some dim =>
          match local_dim dim with
          | None => Raise "ParseInternalError: No variable found for vertical loop dimension"
          | Some d =>
              match ask o' with
              | (None, o'') => Ok (PVert index d [PScheme n], o'')
              | (Some _, _) => Raise "RecursionError"
              end
          end
      end
  end.
(* the analyze methods: L2002, L2059, L1918, L2285: the parts in order *)
Fixpoint analyze (p : part) (o : list (option str)) : res (part * list (option str)) :=
  match p with
  | PScheme n => analyze_scheme n o
  | PSub name loop ps =>
      r <- (fix all (l : list part) (o : list (option str)) : res (list part * list (option str)) :=
              match l with [] => Ok ([], o) | q :: r => a <- analyze q o ;; b <- all r (snd a) ;; Ok (fst a :: fst b, snd b) end) ps o ;;
      Ok (PSub name loop (fst r), snd r)
  | PTime ps =>
      r <- (fix all (l : list part) (o : list (option str)) : res (list part * list (option str)) :=
              match l with [] => Ok ([], o) | q :: r => a <- analyze q o ;; b <- all r (snd a) ;; Ok (fst a :: fst b, snd b) end) ps o ;;
      Ok (PTime (fst r), snd r)
  | PVert i d ps =>
      r <- (fix all (l : list part) (o : list (option str)) : res (list part * list (option str)) :=
              match l with [] => Ok ([], o) | q :: r => a <- analyze q o ;; b <- all r (snd a) ;; Ok (fst a :: fst b, snd b) end) ps o ;;
      Ok (PVert i d (fst r), snd r)
  end.
Fixpoint analyze_all (l : list part) (o : list (option str)) : res (list part * list (option str)) :=
  match l with [] => Ok ([], o) | q :: r => a <- analyze q o ;; b <- analyze_all r (snd a) ;; Ok (fst a :: fst b, snd b) end.
End Analyze.

(* ==== writing ==== *)
(* the lines that matter: "do i = 1, n", "end do" and the block that calls a scheme *)
Inductive stmt := Do (index extent : str) | EndDo | Call (name : str).
(* write: Scheme L1742, VerticalLoop L1959-1968, Subcycle L2024-2031, TimeSplit
   L2074-2080, Group L2613-2615; a subcycle without a name is named by its level
   (L2004-2006), which is not followed here *)
Section Write.
Variables (limit : nat) (find : str -> option str).
Fixpoint write (p : part) : res (list stmt) :=
  match p with
  | PScheme n => Ok [Call n]
  | PTime ps => (fix all (l : list part) : res (list stmt) := match l with [] => Ok [] | q :: r => a <- write q ;; b <- all r ;; Ok (a ++ b) end) ps
  | PVert i d ps =>
      body <- (fix all (l : list part) : res (list stmt) := match l with [] => Ok [] | q :: r => a <- write q ;; b <- all r ;; Ok (a ++ b) end) ps ;;
      Ok (Do i d :: body ++ [EndDo])
  | PSub name _ ps =>
      n <- loop_property limit find ;;
      body <- (fix all (l : list part) : res (list stmt) := match l with [] => Ok [] | q :: r => a <- write q ;; b <- all r ;; Ok (a ++ b) end) ps ;;
      Ok (Do (match name with Some s => s | None => L "subcycle_index" end) n :: body ++ [EndDo])
  end.
Fixpoint write_all (l : list part) : res (list stmt) :=
  match l with [] => Ok [] | q :: r => a <- write q ;; b <- write_all r ;; Ok (a ++ b) end.
End Write.

(* ==== the groups of the other phases ==== *)
(* scheme_library: scheme -> phase -> header title, in insertion order *)
Definition library := list (str * list (str * str)).
Fixpoint entry (phase : str) (l : list (str * str)) : option str :=
  match l with [] => None | (p, t) :: r => if str_eqb p phase then Some t else entry phase r end.
(* has_item, L984-998, on a group of schemes *)
Definition has_item (names : list str) (name : str) : bool := existsb (str_eqb name) names.
(* ccpp_suite.py L431-456 for one phase; [used] is scheme_set; the result are the names
   of the schemes of the phase group *)
Definition add_scheme (phase : str) (used : list str) (names : list str) (m : str * list (str * str)) : list str :=
  if mem (fst m) used then
    match entry phase (snd m) with
    | None => names
    | Some title => if has_item names title then names else names ++ [fst m]
    end
  else names.
Definition phase_group (phase : str) (used : list str) (lib : library) : list str :=
  fold_left (add_scheme phase used) lib [].
(* Suite.parse, L224-255, on the tags of the suite's elements: an element that is no
   group is looked up with function_match, whose result is never None and never a phase
   name *)
Definition parse_suite_tag (tag : str) : res bool :=
  if str_eqb (lower tag) (L "group") then Ok true else Raise "ParseInternalError: Unhandled CCPP suite component tag type".
