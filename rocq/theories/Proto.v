(** Dynamic protobuf messages over the descriptor table of pulsar.proto:
    what [parse_from_bytes], [write_to_bytes], [compute_size] and the
    generated getters of the protobuf 3.x crate do
    (src/codec.rs:85,86,103,104,132,142; src/message.rs passim).

    A message is the list of its fields in wire order. A generated struct
    keeps, per singular field, the last value read; here the getters take the
    last one. Simplifications: (a) a singular sub-message that occurs twice in
    one encoding is replaced, not merged (no encoder produces this);
    (b) out-of-range varints for 32-bit fields are rejected. *)
From Verif Require Import Bytes Wire Utf8.
From Verif Require Export ProtoTable.
Open Scope N_scope.

Inductive pval :=
| PInt (z : Z)                       (* every varint type *)
| PBytes (b : bytes)                 (* string and bytes *)
| PMsg (fs : list (N * pval))        (* sub-message *)
| PUnk (w : wval).                   (* unknown field, kept raw *)
Notation message := (list (N * pval)).

(** Induction over nested messages. *)
Fixpoint pval_ind' (P : pval -> Prop) (Q : message -> Prop)
  (HI : forall z, P (PInt z)) (HB : forall b, P (PBytes b))
  (HM : forall fs, Q fs -> P (PMsg fs)) (HU : forall w, P (PUnk w))
  (Hn : Q []) (Hc : forall n v fs, P v -> Q fs -> Q ((n, v) :: fs)) (v : pval) {struct v} : P v :=
  match v with
  | PInt z => HI z
  | PBytes b => HB b
  | PUnk w => HU w
  | PMsg fs => HM fs
      ((fix go (fs : message) : Q fs :=
          match fs with
          | [] => Hn
          | (n, x) :: r => Hc n x r (pval_ind' P Q HI HB HM HU Hn Hc x) (go r)
          end) fs)
  end.

Definition to_u64 (z : Z) : N := Z.to_N (z mod 18446744073709551616).
Definition signed64 (n : N) : Z :=
  if n <? 9223372036854775808 then Z.of_N n else (Z.of_N n - 18446744073709551616)%Z.

(** * Writing *)
Fixpoint to_raw (v : pval) : wval :=
  match v with
  | PInt z => WVarint (to_u64 z)       (* int32/int64/enum: sign-extended to 64 bits *)
  | PBytes b => WLen b
  | PUnk w => w
  | PMsg fs => WLen (write_raws (map (fun p => match p with (n, x) => (n, to_raw x) end) fs))
  end.
Definition raws (fs : message) : list (N * wval) := map (fun p => match p with (n, x) => (n, to_raw x) end) fs.
(** [Message::write_to_bytes]. *)
Definition write_msg (fs : message) : bytes := write_raws (raws fs).

(** [Message::compute_size]: computed without serialising. *)
Fixpoint val_size (v : pval) : N :=
  match v with
  | PInt z => varint_size (to_u64 z)
  | PBytes b => varint_size (blen b) + blen b
  | PUnk w => wval_size w
  | PMsg fs =>
      let s := (fix go (fs : message) : N :=
                  match fs with
                  | [] => 0
                  | (n, x) :: r => varint_size (tag n (to_raw x)) + val_size x + go r
                  end) fs in
      varint_size s + s
  end.
Fixpoint compute_size (fs : message) : N :=
  match fs with
  | [] => 0
  | (n, x) :: r => varint_size (tag n (to_raw x)) + val_size x + compute_size r
  end.

(** * Parsing *)
Definition find_field (m : mname) (n : N) : option field :=
  find (fun f => f_num f =? n) (fields m).

Definition is_int (t : ftype) : bool :=
  match t with TU64 | TU32 | TI32 | TI64 | TBool | TEnum _ => true | _ => false end.

Definition i32_ok (z : Z) : bool := ((-2147483648 <=? z) && (z <? 2147483648))%Z.
Definition int_of (t : ftype) (n : N) : option Z :=
  match t with
  | TU64 => Some (Z.of_N n)
  | TU32 => if n <? u32_max then Some (Z.of_N n) else None
  | TI64 => Some (signed64 n)
  | TI32 | TEnum _ => if i32_ok (signed64 n) then Some (signed64 n) else None
  | TBool => Some (if n =? 0 then 0%Z else 1%Z)
  | _ => None
  end.
Definition int_ok (t : ftype) (z : Z) : bool :=
  match t with
  | TU64 => ((0 <=? z) && (z <? 18446744073709551616))%Z
  | TU32 => ((0 <=? z) && (z <? 4294967296))%Z
  | TI64 => ((-9223372036854775808 <=? z) && (z <? 9223372036854775808))%Z
  | TI32 | TEnum _ => i32_ok z
  | TBool => ((z =? 0) || (z =? 1))%Z
  | _ => false
  end.

Fixpoint ints_of (t : ftype) (n : N) (l : list N) : option message :=
  match l with
  | [] => Some []
  | k :: r => match int_of t k with
              | Some z => option_map (cons (n, PInt z)) (ints_of t n r)
              | None => None
              end
  end.

(** One field whose type is not a sub-message; a known number with an
    unexpected wire type is an unknown field, as in the generated code. *)
Definition interp_leaf (f : field) (n : N) (w : wval) : option message :=
  if is_int (f_ty f) then
    match w, f_card f with
    | WVarint k, _ => option_map (fun z => [(n, PInt z)]) (int_of (f_ty f) k)
    | WLen b, Rep => match parse_packed b with Some l => ints_of (f_ty f) n l | None => None end
    | _, _ => Some [(n, PUnk w)]
    end
  else
    match f_ty f, w with
    | TStr, WLen b => if utf8 b then Some [(n, PBytes b)] else None
    | TByt, WLen b => Some [(n, PBytes b)]
    | _, _ => Some [(n, PUnk w)]
    end.

(** [depth] is what is left of the crate's recursion limit. *)
Fixpoint interp (depth : nat) (m : mname) : list (N * wval) -> option message :=
  fix go (rs : list (N * wval)) : option message :=
    match rs with
    | [] => Some []
    | (n, w) :: r =>
        let here :=
          match find_field m n with
          | None => Some [(n, PUnk w)]
          | Some f =>
              match f_ty f, w with
              | TMsg sub, WLen b =>
                  match depth with
                  | O => None
                  | S d => match parse_raw b with
                           | Some rs' => option_map (fun fs => [(n, PMsg fs)]) (interp d sub rs')
                           | None => None
                           end
                  end
              | _, _ => interp_leaf f n w
              end
          end in
        match here with
        | Some x => option_map (app x) (go r)
        | None => None
        end
    end.

(** [Message::is_initialized]: required fields present, recursively. *)
Definition present (n : N) (fs : message) : bool :=
  existsb (fun p => (fst p =? n) && match snd p with PUnk _ => false | _ => true end) fs.
Definition required_ok (m : mname) (fs : message) : bool :=
  forallb (fun f => match f_card f with Req => present (f_num f) fs | _ => true end) (fields m).
Fixpoint inited_val (m : mname) (v : pval) : bool :=
  match v with
  | PMsg fs =>
      required_ok m fs &&
      (fix go (fs : message) : bool :=
         match fs with
         | [] => true
         | (n, x) :: r =>
             match find_field m n with
             | Some f => match f_ty f with TMsg sub => inited_val sub x | _ => true end
             | None => true
             end && go r
         end) fs
  | _ => true
  end.
Definition initialized (m : mname) (fs : message) : bool := inited_val m (PMsg fs).

Definition recursion_limit : nat := 100.
(** [M::parse_from_bytes]; [None] is any protobuf error. *)
Definition parse_msg (m : mname) (b : bytes) : option message :=
  match parse_raw b with
  | None => None
  | Some rs => match interp recursion_limit m rs with
               | Some fs => if initialized m fs then Some fs else None
               | None => None
               end
  end.

(** * Getters *)
Definition get_z (n : N) (fs : message) : option Z :=
  fold_left (fun acc p => if fst p =? n then match snd p with PInt z => Some z | _ => acc end else acc) fs None.
Definition get_b (n : N) (fs : message) : option bytes :=
  fold_left (fun acc p => if fst p =? n then match snd p with PBytes b => Some b | _ => acc end else acc) fs None.
Definition get_m (n : N) (fs : message) : option message :=
  fold_left (fun acc p => if fst p =? n then match snd p with PMsg x => Some x | _ => acc end else acc) fs None.
Definition get_ms (n : N) (fs : message) : list message :=
  flat_map (fun p => if fst p =? n then match snd p with PMsg x => [x] | _ => [] end else []) fs.

Definition z_or (d : Z) (o : option Z) : Z := match o with Some z => z | None => d end.
Definition b_or (d : bytes) (o : option bytes) : bytes := match o with Some z => z | None => d end.
Definition m_or_empty (o : option message) : message := match o with Some m => m | None => [] end.

(** A getter of an unsigned field: value or 0. *)
Definition get_u (n : N) (fs : message) : N := Z.to_N (z_or 0%Z (get_z n fs)).

(** A generated enum getter: the declared value read, otherwise the first
    declared value ([EnumOrUnknown::enum_value_or(DEFAULT)]). *)
Definition get_e (e : ename) (n : N) (fs : message) : Z :=
  let dflt := hd 0%Z (enum_values e) in
  match get_z n fs with
  | Some z => if existsb (Z.eqb z) (enum_values e) then z else dflt
  | None => dflt
  end.

(** * Well-typed messages: what a generated struct can hold. *)
Definition unk_ok (f : field) (w : wval) : bool :=
  match f_ty f, w with
  | TMsg _, WLen _ => false
  | (TStr | TByt), WLen _ => false
  | t, WVarint _ => negb (is_int t)
  | t, WLen _ => negb (is_int t && match f_card f with Rep => true | _ => false end)
  | _, _ => true
  end.

Fixpoint wt (depth : nat) (m : mname) : message -> bool :=
  fix go (fs : message) : bool :=
    match fs with
    | [] => true
    | (n, v) :: r =>
        num_ok n &&
        match find_field m n with
        | None => match v with PUnk w => wval_ok w | _ => false end
        | Some f =>
            match v with
            | PInt z => int_ok (f_ty f) z
            | PBytes b => match f_ty f with TStr => utf8 b | TByt => true | _ => false end
            | PUnk w => wval_ok w && unk_ok f w
            | PMsg sub => match f_ty f, depth with
                          | TMsg s, S d => wt d s sub
                          | _, _ => false
                          end
            end
        end && go r
    end.
Definition well_typed (m : mname) (fs : message) : bool := wt recursion_limit m fs && initialized m fs.
