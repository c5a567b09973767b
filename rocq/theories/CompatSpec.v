(* CompatSpec.v: what index translation between two dimension orders means. *)
From Verif Require Export CompatModel.
Open Scope nat_scope.
Open Scope list_scope.
(* p and q are mutually inverse permutations of 0..n-1 *)
Definition inverse_perms (n : nat) (p q : list nat) : Prop :=
  length p = n /\ length q = n /\
  (forall j, j < n -> exists i, nth_error p j = Some i /\ i < n /\ nth_error q i = Some j) /\
  (forall i, i < n -> exists j, nth_error q i = Some j /\ j < n /\ nth_error p j = Some i).
(* The index list of variable 2 that addresses the same element as index list
   [idx] of variable 1: position j takes the index of the matching dimension;
   only the horizontal index is shifted and only the vertical one is mirrored. *)
Definition addresses (t : dim_transform) (var2 : list str) (adj flip : option Z) (idx idx2 : list Z) : Prop :=
  length idx2 = length (fperm t) /\
  forall j i v, nth_error (fperm t) j = Some i -> nth_error idx i = Some v ->
    nth_error idx2 j = Some
      (let d := nth j var2 [] in
       if is_horizontal d then
         match adj with
         | Some c => if v1_hloop t && negb (v2_hloop t) then v + c - 1
                     else if v2_hloop t && negb (v1_hloop t) then v - c + 1 else v
         | None => v
         end
       else if is_vertical d then match flip with Some n => n - v + 1 | None => v end
       else v)%Z.
(* same dimension up to the choice of horizontal extent and the default lower bound *)
Definition same_dim (a b : str) : Prop :=
  (is_horizontal a = true /\ is_horizontal b = true) \/ a = b \/
  a = L "ccpp_constant_one:" ++ b \/ b = L "ccpp_constant_one:" ++ a.
(* not one of the two range spellings whose category differs from that of the bare name *)
Definition plain_vertical (d : str) : Prop :=
  d <> L "ccpp_constant_one:vertical_layer_index" /\ d <> L "ccpp_constant_one:vertical_interface_index".
(* at most one dimension of the list is in the category *)
Definition at_most_one (cat : str -> bool) (dims : list str) : Prop :=
  forall i j, i < length dims -> j < length dims ->
    cat (nth i dims []) = true -> cat (nth j dims []) = true -> i = j.

(* a conversion formula: text with places for the variable and the kind suffix *)
Inductive piece := Txt (s : str) | VarHere | KindHere.
Definition formula_text (f : list piece) : str :=
  flat_map (fun p => match p with Txt s => s | VarHere => L "{var}" | KindHere => L "{kind}" end) f.
Definition formula_with (f : list piece) (var kind : str) : str :=
  flat_map (fun p => match p with Txt s => s | VarHere => var | KindHere => kind end) f.
Definition plain_formula (f : list piece) : Prop := forall s, In (Txt s) f -> ~ In "{"%char s.
