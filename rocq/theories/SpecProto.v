(** When do two encodings say the same thing? (C09)
    [same_wire d m rs rs']: for every field that the schema of [m] declares, the
    occurrences of that field are the same, in the same order, in both raw field
    lists, sub-messages compared recursively; fields that the schema does not
    declare may be added or removed anywhere, and fields with different numbers
    may be interleaved in any order. [d] bounds the nesting compared
    recursively (below it values must be equal).
    [same_msg d m fs fs']: the same relation on parsed messages. *)
From Verif Require Import Bytes Wire Proto.
Open Scope N_scope.

Definition occurrences {A} (n : N) (l : list (N * A)) : list A :=
  map snd (filter (fun p => fst p =? n) l).

Fixpoint same_wire (d : nat) (m : mname) (rs rs' : list (N * wval)) : Prop :=
  forall f, In f (fields m) ->
    Forall2 (fun w w' =>
      w = w' \/
      match d with
      | O => False
      | S d' => exists sub b b' r r',
          f_ty f = TMsg sub /\ w = WLen b /\ w' = WLen b' /\
          parse_raw b = Some r /\ parse_raw b' = Some r' /\ same_wire d' sub r r'
      end) (occurrences (f_num f) rs) (occurrences (f_num f) rs').

Fixpoint same_msg (d : nat) (m : mname) (fs fs' : message) : Prop :=
  forall f, In f (fields m) ->
    Forall2 (fun v v' =>
      v = v' \/
      match d with
      | O => False
      | S d' => exists sub s s',
          f_ty f = TMsg sub /\ v = PMsg s /\ v' = PMsg s' /\ same_msg d' sub s s'
      end) (occurrences (f_num f) fs) (occurrences (f_num f) fs').
