(* Model of the host cap capgen generates: scripts/host_cap.py L65-79
   (suite_part_list), L187-191 (name of the dynamic constituent array), L495-536
   (suite_part_call_list), L607-795 (the ccpp_physics_<stage> subroutines of
   write_host_cap) and of the inspection routines of scripts/ccpp_suite.py L487-514
   (is_run_group, part_list), L772-814 (write_var_set_loop,
   write_suite_part_list_sub), L1141-1191 (write_suite_schemes_sub,
   write_inspection_routines).  The generated Fortran is a list of lines; its meaning
   is an abstract machine for if-constructs, allocatable arrays and calls. *)
From Coq Require Import List Ascii String Bool Arith ZArith Lia.
Import ListNotations.
From Verif Require Import PyStr ReqModel.
Open Scope string_scope.
Open Scope list_scope.
Open Scope nat_scope.

(* ===== the suites of an API object ===== *)

(* A dummy argument of a suite part: its standard name, local name and type, and
   whether include_var_in_list (metavar.py L1575-1590) classifies it as a loop
   variable (standard name in CCPP_LOOP_VAR_STDNAMES) or as a constant (standard name
   in CCPP_CONSTANT_VARS).  Simplification: the two classifications are given as
   flags rather than by membership in the two fixed tables. *)
Record dummy := mkD { d_std : str; d_lname : str; d_type : str; d_loop : bool; d_const : bool }.

Definition const_prop_t : str := L "ccpp_constituent_properties_t".

(* A Group of a suite: full name, call list and schemes (suite_objects.py L2145-2157:
   the name of a group is <suite name>_<name in the suite file>). *)
Record part := mkP { p_name : str; p_dummies : list dummy; p_schemes : list str }.

(* The stages, i.e. the transitions of CCPP_STATE_MACH (ccpp_state_machine.py L16-27). *)
Inductive stage := Reg | Ini | TIni | Run | TFin | Fin.
Definition stage_name (t : stage) : str :=
  match t with
  | Reg => L "register" | Ini => L "initialize" | TIni => L "timestep_initial"
  | Run => L "run" | TFin => L "timestep_final" | Fin => L "finalize"
  end.

(* A suite: its name, the call lists and schemes of its five phase groups (made by
   new_group_from_name, ccpp_suite.py L207-217) and the groups of its suite file. *)
Record suite := mkS {
  s_name : str;
  s_phase : stage -> list dummy * list str;
  s_groups : list (str * (list dummy * list str)) }.

(* suite_objects.py L2149: name = parent.name + '_' + gxml.get('name'). *)
Definition mk_part (s : suite) (g : str * (list dummy * list str)) : part :=
  mkP (s_name s ++ L "_" ++ fst g) (fst (snd g)) (snd (snd g)).

(* ccpp_suite.py L487-509, phase_group: the group of a stage other than run. *)
Definition phase_group (s : suite) (t : stage) : part :=
  mk_part s (stage_name t, s_phase s t).

(* ccpp_suite.py L226-254: Suite.groups, in the order they are appended. *)
Definition groups (s : suite) : list part :=
  [phase_group s Reg; phase_group s Ini; phase_group s TIni]
    ++ map (mk_part s) (s_groups s)
    ++ [phase_group s TFin; phase_group s Fin].

(* ccpp_suite.py L218-225, L487-492: is_run_group compares names with _beg_groups and
   _end_groups. *)
Definition is_run_group (s : suite) (p : part) : bool :=
  negb (mem (p_name p) (map p_name [phase_group s Reg; phase_group s Ini; phase_group s TIni]))
    && negb (mem (p_name p) (map p_name [phase_group s Fin; phase_group s TFin])).

(* host_cap.py L65-79. *)
Definition suite_part_list (s : suite) (t : stage) : list part :=
  match t with
  | Run => List.filter (is_run_group s) (groups s)
  | _ => [phase_group s t]
  end.

(* spart.name[len(suite.name)+1:] (host_cap.py L724, ccpp_suite.py L508). *)
Definition pname (s : suite) (p : part) : str := skipn (length (s_name s) + 1) (p_name p).

(* ccpp_suite.py L503-511. *)
Definition part_list (s : suite) : list str :=
  map (pname s) (List.filter (is_run_group s) (groups s)).

(* host_cap.py L187-191.  Simplification: the host model has no variable of that
   local name, so unique_local_name returns the name itself. *)
Definition dyn_array (s : suite) : str := s_name s ++ L "_dynamic_constituents".

(* ===== the arguments of a call ===== *)

(* The host model and the constituent dictionary, seen through
   find_variable(any_scope=False) followed by var_call_string (host_cap.py L520-530).
   Simplification: the call string is that of the dictionary, loop variables included. *)
Record hostdicts := mkH { h_host : str -> option str; h_cons : str -> option str }.

Definition lookup_var (h : hostdicts) (n : str) : option str :=
  match h_host h n with Some x => Some x | None => h_cons h n end.

(* metavar.py L1575-1610: variable_list(loop_vars=b) with the other defaults. *)
Definition variable_list (loop_vars : bool) (l : list dummy) : list dummy :=
  List.filter (fun d => if d_const d then true else if d_loop d then loop_vars else true) l.

(* host_cap.py L495-536. *)
Fixpoint call_args (h : hostdicts) (dyn : bool) (l : list dummy) : res (list (str * str)) :=
  match l with
  | [] => Ok []
  | d :: l' =>
      if str_eqb (d_type d) const_prop_t then
        r <- call_args h dyn l' ;;
        Ok (if dyn then (d_lname d, d_lname d) :: r else r)
      else
        match lookup_var h (d_std d) with
        | None => Raise "CCPPError"
        | Some x =>
            r <- call_args h dyn l' ;;
            Ok (if d_const d then r else (d_lname d, x) :: r)
        end
  end.
Definition suite_part_call_list (h : hostdicts) (p : part) (subst_loop_vars dyn : bool)
  : res (list (str * str)) :=
  call_args h dyn (variable_list subst_loop_vars (p_dummies p)).

(* suite_objects.py L108-195, call_string() without arguments: the dummy arguments in
   the subroutine statement of a part (all variables except the constants).
   Simplification: local names are identifiers, not array references. *)
Definition declared (p : part) : list str :=
  map d_lname (List.filter (fun d => negb (d_const d)) (p_dummies p)).

(* ===== the generated lines ===== *)

Inductive cvar := SuiteName | SuitePart.
Inductive line :=
| LIf (els : bool) (v : cvar) (lit : str)        (* [else ]if (trim(v) == 'lit') then *)
| LElse
| LEndIf
| LErr                                           (* write(errmsg, ..) and errflg = 1 *)
| LClear                                         (* errflg = 0 and errmsg = '' *)
| LCall (sub : str) (args : list (str * str))    (* call sub(dummy=actual, ...) *)
| LReturnIfErr                                   (* if (errflg /= 0) then; return; end if *)
| LAlloc (a : str) (sizes : list str)            (* allocate(a(0+size(v1)+...)) *)
| LZeroCount                                     (* num_dyn_consts = 0 *)
| LPack (a v : str)                              (* do const_index = 1, size(v): a(num+i) = v(i) *)
| LCount (v : str)                               (* num_dyn_consts = num_dyn_consts + size(v) *)
| LDealloc (v : str)                             (* deallocate(v) *)
| LAllocOut (n : nat)                            (* allocate(list(n)) *)
| LSet (i : nat) (lit : str).                    (* list(i) = 'lit' *)

(* The local variables of a stage: the runtime constituent arrays of every part of
   every suite (host_cap.py L613-646), in dictionary order; a second variable with the
   same standard or local name is an error (metavar.py L1612-1680). *)
Definition local_of (l : list (str * str)) (std lname : str) : res (list (str * str)) :=
  if mem std (map fst l) then Raise "ParseSyntaxError"
  else if mem lname (map snd l) then Raise "ParseSyntaxError"
  else Ok (l ++ [(std, lname)]).

(* One variable of a part (host_cap.py L619-641). *)
Definition scan_var (h : hostdicts) (t : stage) (l : list (str * str)) (d : dummy)
  : res (list (str * str)) :=
  if str_eqb (d_type d) const_prop_t then
    match t with
    | Reg => local_of l (d_std d) (d_lname d)
    | _ => Raise "CCPPError"
    end
  else
    match lookup_var h (d_std d) with
    | None => Raise "CCPPError"
    | Some _ => Ok l
    end.

Fixpoint fold_res {A B} (f : A -> B -> res A) (a : A) (l : list B) : res A :=
  match l with
  | [] => Ok a
  | x :: l' => a' <- f a x ;; fold_res f a' l'
  end.

(* host_cap.py L607-646. *)
Definition host_locals (h : hostdicts) (t : stage) (ss : list suite) : res (list (str * str)) :=
  fold_res (fun l s =>
    fold_res (fun l p => fold_res (scan_var h t) l (variable_list true (p_dummies p)))
             l (suite_part_list s t)) [] ss.

(* host_cap.py L720-741: the parts of a suite in the run stage. *)
Fixpoint run_parts (h : hostdicts) (s : suite) (els : bool) (l : list part) : res (list line) :=
  match l with
  | [] => Ok []
  | p :: l' =>
      args <- suite_part_call_list h p true false ;;
      r <- run_parts h s true l' ;;
      Ok (LIf els SuitePart (pname s p) :: LCall (p_name p) args :: r)
  end.

(* host_cap.py L742-786: the register stage. *)
Definition reg_body (h : hostdicts) (locals : list str) (s : suite) : res (list line) :=
  args <- suite_part_call_list h (phase_group s Reg) false true ;;
  Ok (LCall (s_name s ++ L "_" ++ stage_name Reg) args
      :: LReturnIfErr
      :: LAlloc (dyn_array s) locals
      :: (match locals with [] => [] | _ => [LZeroCount] end)
      ++ List.concat (map (fun v => [LPack (dyn_array s) v; LCount v; LDealloc v]) locals)).

(* host_cap.py L718-792: what is written for one suite. *)
Definition suite_body (h : hostdicts) (locals : list str) (t : stage) (s : suite)
  : res (list line) :=
  match t with
  | Run =>
      r <- run_parts h s false (suite_part_list s Run) ;;
      Ok (r ++ [LElse; LErr; LEndIf])
  | Reg => reg_body h locals s
  | _ =>
      args <- suite_part_call_list h (phase_group s t) false false ;;
      Ok [LCall (s_name s ++ L "_" ++ stage_name t) args]
  end.

Fixpoint suite_chain (body : suite -> res (list line)) (els : bool) (ss : list suite)
  : res (list line) :=
  match ss with
  | [] => Ok []
  | s :: ss' =>
      b <- body s ;;
      r <- suite_chain body true ss' ;;
      Ok (LIf els SuiteName (s_name s) :: b ++ r)
  end.

(* host_cap.py L607-795: the executable lines of <host>_ccpp_physics_<stage>. *)
Definition stage_lines (h : hostdicts) (ss : list suite) (t : stage) : res (list line) :=
  locals <- host_locals h t ss ;;
  r <- suite_chain (suite_body h (map snd locals) t) false ss ;;
  Ok (LClear :: r ++ [LElse; LErr; LEndIf]).

(* host_cap.py L686-694: the names the subroutine imports, with their modules
   (ccpp_suite.py L197: the module of a suite is ccpp_<suite>_cap). *)
Definition stage_uses (ss : list suite) (t : stage) : list (str * str) :=
  List.concat (map (fun s => map (fun p => (L "ccpp_" ++ s_name s ++ L "_cap", p_name p))
                                 (suite_part_list s t)) ss).

(* ===== the inspection routines ===== *)

(* ccpp_suite.py L772-789. *)
Fixpoint set_from (i : nat) (l : list str) : list line :=
  match l with [] => [] | x :: l' => LSet i x :: set_from (S i) l' end.
Definition var_set_loop (l : list str) : list line :=
  LAllocOut (length l) :: set_from 1 (sorted l).

(* ccpp_suite.py L791-814. *)
Definition part_list_lines (ss : list suite) : res (list line) :=
  r <- suite_chain (fun s => Ok (var_set_loop (part_list s))) false ss ;;
  Ok (LClear :: r ++ [LElse; LErr; LEndIf]).

(* ccpp_suite.py L1158-1163: the set of the schemes of all groups. *)
Definition scheme_set (s : suite) : list str :=
  fold_left (fun acc p => s_union acc (p_schemes p)) (groups s) [].

(* ccpp_suite.py L1141-1174. *)
Definition scheme_list_lines (ss : list suite) : res (list line) :=
  r <- suite_chain (fun s => Ok (var_set_loop (scheme_set s))) false ss ;;
  Ok (LClear :: r ++ [LElse; LErr; LEndIf]).

(* ccpp_suite.py L1176-1185: the list of suites, in order. *)
Definition suite_list_lines (ss : list suite) : list line :=
  LAllocOut (length ss) :: set_from 1 (map s_name ss).

(* ===== the meaning of the lines: a Fortran machine ===== *)

Section Machine.
Context {A : Type}.

(* What a called suite part does: the error code it sets and the allocatable dummy
   arguments it allocates, with their contents. *)
Definition callee := str -> Z * list (str * list A).

Record state := mkSt {
  st_err : Z;                              (* errflg *)
  st_calls : list (str * list (str * str));(* the calls made, in order *)
  st_ret : bool;                           (* a return statement was executed *)
  st_loc : str -> option (list A);         (* local allocatable arrays *)
  st_mod : str -> option (list (option A));(* module allocatable arrays *)
  st_cnt : nat;                            (* num_dyn_consts *)
  st_out : option (list (option str)) }.   (* the list an inspection routine returns *)

(* A frame of an if-construct: whether the construct itself is executed, whether a
   branch has been taken, whether the current branch is executed, whether the else
   branch has been reached. *)
Record frame := mkF { f_outer : bool; f_taken : bool; f_cur : bool; f_else : bool }.

Definition upd {B} (m : str -> option B) (k : str) (v : option B) : str -> option B :=
  fun x => if str_eqb x k then v else m x.

(* Fortran: trailing blanks are not significant in a comparison; trim. *)
Definition blank_eq (a b : str) : bool := 
  str_eqb (rev (dropwhile (Ascii.eqb " "%char) (rev a))) (rev (dropwhile (Ascii.eqb " "%char) (rev b))).

Definition assoc {B} (k : str) (l : list (str * B)) : option B :=
  option_map snd (List.find (fun e => str_eqb (fst e) k) l).

Definition set_nth {B} (i : nat) (x : B) (l : list B) : option (list B) :=
  if i <? length l then Some (firstn i l ++ x :: skipn (S i) l) else None.

(* The sizes of arrays: undefined for one that is not allocated. *)
Fixpoint total (m : str -> option (list A)) (l : list str) : option nat :=
  match l with
  | [] => Some 0
  | v :: l' => match m v, total m l' with Some x, Some n => Some (length x + n) | _, _ => None end
  end.

(* Assigning to a character(len=k) variable pads or truncates. *)
Definition fit (k : nat) (x : str) : str := firstn k (x ++ List.repeat " "%char k).

(* Elements i, i+1, ... of an array get the values. *)
Fixpoint pack (i : nat) (l : list A) (a : list (option A)) : option (list (option A)) :=
  match l with
  | [] => Some a
  | x :: l' => match set_nth i (Some x) a with Some a' => pack (S i) l' a' | None => None end
  end.

Definition do_call (w : callee) (sub : str) (args : list (str * str)) (s : state) : state :=
  let (e, outs) := w sub in
  mkSt e (st_calls s ++ [(sub, args)]) (st_ret s)
       (fold_left (fun m da => match assoc (fst da) outs with
                               | Some x => upd m (snd da) (Some x) | None => m end) args (st_loc s))
       (st_mod s) (st_cnt s) (st_out s).

(* One executed statement that is not part of an if-construct; None where the Fortran
   program has no defined behaviour. *)
Definition exec1 (w : callee) (k : nat) (s : state) (x : line) : option state :=
  match x with
  | LErr => Some (mkSt 1 (st_calls s) (st_ret s) (st_loc s) (st_mod s) (st_cnt s) (st_out s))
  | LClear => Some (mkSt 0 (st_calls s) (st_ret s) (st_loc s) (st_mod s) (st_cnt s) (st_out s))
  | LCall sub args => Some (do_call w sub args s)
  | LReturnIfErr =>
      Some (mkSt (st_err s) (st_calls s) (negb (Z.eqb (st_err s) 0)) (st_loc s) (st_mod s) (st_cnt s) (st_out s))
  | LAlloc a sizes =>
      match st_mod s a, total (st_loc s) sizes with
      | None, Some n =>
          Some (mkSt (st_err s) (st_calls s) (st_ret s) (st_loc s)
                     (upd (st_mod s) a (Some (List.repeat None n))) (st_cnt s) (st_out s))
      | _, _ => None
      end
  | LZeroCount => Some (mkSt (st_err s) (st_calls s) (st_ret s) (st_loc s) (st_mod s) 0 (st_out s))
  | LPack a v =>
      match st_loc s v, st_mod s a with
      | Some l, Some arr =>
          match pack (st_cnt s) l arr with
          | Some arr' =>
              Some (mkSt (st_err s) (st_calls s) (st_ret s) (st_loc s)
                         (upd (st_mod s) a (Some arr')) (st_cnt s) (st_out s))
          | None => None
          end
      | _, _ => None
      end
  | LCount v =>
      match st_loc s v with
      | Some l => Some (mkSt (st_err s) (st_calls s) (st_ret s) (st_loc s) (st_mod s)
                             (st_cnt s + length l) (st_out s))
      | None => None
      end
  | LDealloc v =>
      match st_loc s v with
      | Some _ => Some (mkSt (st_err s) (st_calls s) (st_ret s) (upd (st_loc s) v None)
                             (st_mod s) (st_cnt s) (st_out s))
      | None => None
      end
  | LAllocOut n =>
      match st_out s with
      | None => Some (mkSt (st_err s) (st_calls s) (st_ret s) (st_loc s) (st_mod s) (st_cnt s)
                           (Some (List.repeat None n)))
      | Some _ => None
      end
  | LSet i lit =>
      match st_out s, i with
      | Some l, S j =>
          match set_nth j (Some (fit k lit)) l with
          | Some l' => Some (mkSt (st_err s) (st_calls s) (st_ret s) (st_loc s) (st_mod s)
                                  (st_cnt s) (Some l'))
          | None => None
          end
      | _, _ => None
      end
  | _ => None
  end.

(* Is the current line executed? *)
Definition live (fs : list frame) (s : state) : bool :=
  negb (st_ret s) && match fs with [] => true | f :: _ => f_cur f end.

(* The machine.  args gives the values of suite_name and suite_part; k is the length
   of the elements of the list an inspection routine fills.  None: the text is not a
   Fortran subroutine, or its behaviour is undefined. *)
Fixpoint exec (w : callee) (k : nat) (val : cvar -> str) (fs : list frame) (s : state)
         (p : list line) : option state :=
  match p with
  | [] => match fs with [] => Some s | _ => None end
  | LIf false v lit :: p' =>
      let t := blank_eq (val v) lit in
      exec w k val (mkF (live fs s) t (live fs s && t) false :: fs) s p'
  | LIf true v lit :: p' =>
      match fs with
      | mkF o tk _ false :: fs' =>
          let t := blank_eq (val v) lit in
          exec w k val (mkF o (tk || t) (o && negb tk && t && negb (st_ret s)) false :: fs') s p'
      | _ => None
      end
  | LElse :: p' =>
      match fs with
      | mkF o tk _ false :: fs' =>
          exec w k val (mkF o true (o && negb tk && negb (st_ret s)) true :: fs') s p'
      | _ => None
      end
  | LEndIf :: p' => match fs with _ :: fs' => exec w k val fs' s p' | [] => None end
  | x :: p' =>
      if live fs s then
        match exec1 w k s x with
        | Some s' => exec w k val fs s' p'
        | None => None
        end
      else exec w k val fs s p'
  end.

End Machine.
