(** Reading a form as the token endpoint does (application/x-www-form-urlencoded,
    WHATWG URL standard, section 5.1), written independently of the serializer. *)
From Coq Require Import Strings.Byte.
From Verif Require Import Bytes.
Open Scope N_scope.

(** The parts of a text between the separators. *)
Fixpoint split (c : byte) (l : bytes) : list bytes :=
  match l with
  | [] => [[]]
  | x :: r => if byte_eqb x c then [] :: split c r
              else match split c r with p :: ps => (x :: p) :: ps | [] => [[x]] end
  end.
(** Before and after the first [c]. *)
Fixpoint cut (c : byte) (l : bytes) : bytes * bytes :=
  match l with
  | [] => ([], [])
  | x :: r => if byte_eqb x c then ([], r) else let (a, b) := cut c r in (x :: a, b)
  end.
Definition unhex (x : byte) : option N :=
  let n := b2n x in
  if (48 <=? n) && (n <=? 57) then Some (n - 48)
  else if (65 <=? n) && (n <=? 70) then Some (n - 55)
  else if (97 <=? n) && (n <=? 102) then Some (n - 87)
  else None.
(** A plus is a space; a percent sign and two hexadecimal digits are one byte. *)
Fixpoint unform (l : bytes) : bytes :=
  match l with
  | [] => []
  | x :: r =>
      if byte_eqb x x2b then x20 :: unform r
      else if byte_eqb x x25 then
        match r with
        | a :: b :: r' =>
            match unhex a, unhex b with
            | Some m, Some n => n2b (16 * m + n) :: unform r'
            | _, _ => x :: unform r
            end
        | _ => x :: unform r
        end
      else x :: unform r
  end.
Definition read_form (l : bytes) : list (bytes * bytes) :=
  map (fun p => let (a, b) := cut x3d p in (unform a, unform b)) (filter (fun p => match p with [] => false | _ => true end) (split x26 l)).
