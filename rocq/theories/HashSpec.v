(* HashSpec.v: what a keyed collection should do.  No buckets, no hashing: the
   state is the list of accepted objects in the order they were accepted. *)
From Verif Require Import Base HashModel.
Set Implicit Arguments.
Open Scope Z_scope.

Section Spec.
Variable V : Type.
Variable key : V -> string.

Inductive sstate :=
| SUninit                       (* never initialised, or cleared *)
| SReady (l : list V)           (* the objects held *)
| SZero.                        (* initialised with a negative size exponent: no room *)

(* Two keys are the same when they agree up to trailing blanks. *)
Definition same_key (a b : string) : Prop := rtrim a = rtrim b.

Definition lookup (l : list V) (k : string) : option V :=
  find (fun v => feqb (key v) k) l.

Definition sstep (s : sstate) (o : hop V) : sstate * hout V :=
  match o with
  | HInit e _ => ((if e <? 0 then SZero else SReady []), HDone)
  | HClear => (SUninit, HDone)
  | HAdd v =>
      match s with
      | SReady l => match lookup l (key v) with
                    | Some _ => (s, HFail)
                    | None => (SReady (l ++ [v])%list, HDone)
                    end
      | _ => (s, HFail)
      end
  | HValue k =>
      match s with
      | SReady l => match lookup l k with Some v => (s, HVal v) | None => (s, HFail) end
      | _ => (s, HFail)
      end
  | HNum => (s, HCount (match s with SReady l => Z.of_nat (List.length l) | _ => 0 end))
  | HIsInit => (s, HBool (match s with SUninit => false | _ => true end))
  end.

Fixpoint srun (s : sstate) (ops : list (hop V)) : sstate * list (hout V) :=
  match ops with
  | [] => (s, [])
  | o :: r => let '(s1, out) := sstep s o in
              let '(s2, outs) := srun s1 r in (s2, out :: outs)
  end.
End Spec.
Arguments SUninit {V}. Arguments SReady {V}. Arguments SZero {V}.
