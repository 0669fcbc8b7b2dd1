(** The protobuf encoding as a grammar, written down without the model's readers:
    which byte strings encode which messages. (The data types of the model are used:
    wire values, field values, and the table of messages and fields.) *)
From Verif Require Import Bytes Wire Proto Codec SpecFrame.
Open Scope N_scope.

(** * Variable-length integers
    Seven bits per byte, least significant first, the top bit set in all bytes but
    the last; at most ten bytes and 64 bits. *)
Inductive septets : bytes -> N -> Prop :=
| sep_last x : b2n x < 128 -> septets [x] (b2n x)
| sep_more x r n : 128 <= b2n x -> septets r n -> septets (x :: r) (b2n x - 128 + 128 * n).
Definition is_varint (b : bytes) (n : N) : Prop := septets b n /\ (length b <= 10)%nat /\ n < 2 ^ 64.

(** * Fields
    A tag - field number times eight plus wire type - and a value. *)
Inductive is_field : bytes -> N * wval -> Prop :=
| fld_varint t b num n : 1 <= num < 2 ^ 29 -> is_varint t (num * 8) -> is_varint b n -> is_field (t ++ b) (num, WVarint n)
| fld_fixed64 t b num : 1 <= num < 2 ^ 29 -> is_varint t (num * 8 + 1) -> length b = 8%nat -> is_field (t ++ b) (num, WFixed64 b)
| fld_len t l b num : 1 <= num < 2 ^ 29 -> is_varint t (num * 8 + 2) -> is_varint l (N.of_nat (length b)) -> is_field (t ++ l ++ b) (num, WLen b)
| fld_fixed32 t b num : 1 <= num < 2 ^ 29 -> is_varint t (num * 8 + 5) -> length b = 4%nat -> is_field (t ++ b) (num, WFixed32 b).
Inductive are_fields : bytes -> list (N * wval) -> Prop :=
| flds_nil : are_fields [] []
| flds_cons b f r fs : is_field b f -> are_fields r fs -> are_fields (b ++ r) (f :: fs).
Inductive are_varints : bytes -> list N -> Prop :=
| vars_nil : are_varints [] []
| vars_cons b n r ns : is_varint b n -> are_varints r ns -> are_varints (b ++ r) (n :: ns).

(** * Texts
    A text is the UTF-8 encoding of a sequence of code points (no surrogates). *)
Definition code_point (c : N) : Prop := c < 55296 \/ 57344 <= c < 1114112.
Definition utf8_of (c : N) : list N :=
  if c <? 128 then [c]
  else if c <? 2048 then [192 + c / 64; 128 + c mod 64]
  else if c <? 65536 then [224 + c / 4096; 128 + (c / 64) mod 64; 128 + c mod 64]
  else [240 + c / 262144; 128 + (c / 4096) mod 64; 128 + (c / 64) mod 64; 128 + c mod 64].
Definition is_text (b : bytes) : Prop := exists cs, Forall code_point cs /\ map b2n b = concat (map utf8_of cs).

(** * Values
    What an integer field of each type makes of a 64-bit varint: unsigned types the
    number itself, signed types and enums the number in two's complement, within
    their range; a boolean whether it is not zero. *)
Inductive int_value : ftype -> N -> Z -> Prop :=
| iv_u64 n : int_value TU64 n (Z.of_N n)
| iv_u32 n : n < 2 ^ 32 -> int_value TU32 n (Z.of_N n)
| iv_i64 n z : (- 2 ^ 63 <= z < 2 ^ 63)%Z -> (z mod 2 ^ 64 = Z.of_N n)%Z -> int_value TI64 n z
| iv_i32 n z : (- 2 ^ 31 <= z < 2 ^ 31)%Z -> (z mod 2 ^ 64 = Z.of_N n)%Z -> int_value TI32 n z
| iv_enum e n z : (- 2 ^ 31 <= z < 2 ^ 31)%Z -> (z mod 2 ^ 64 = Z.of_N n)%Z -> int_value (TEnum e) n z
| iv_false : int_value TBool 0 0
| iv_true n : 0 < n -> int_value TBool n 1.
Definition integral (t : ftype) : Prop := exists n z, int_value t n z.
(** The wire values a field of the schema takes; any other wire value under its
    number counts as unknown. (Floating-point fields, which the client never reads,
    are kept raw.) *)
Definition takes_value (f : field) (w : wval) : Prop :=
  match w with
  | WVarint _ => integral (f_ty f)
  | WLen _ => f_ty f = TStr \/ f_ty f = TByt \/ (exists m, f_ty f = TMsg m) \/ (f_card f = Rep /\ integral (f_ty f))
  | _ => False
  end.

(** [encodes d m b fs]: the bytes [b] encode the fields [fs] of a message of type
    [m], sub-messages nested at most [d] deep. One field on the wire gives one field
    of the message, or several if it packs repeated integers. *)
Inductive encodes : nat -> mname -> bytes -> message -> Prop :=
| enc d m b rs fss : are_fields b rs -> gives d m rs fss -> encodes d m b (concat fss)
with gives : nat -> mname -> list (N * wval) -> list message -> Prop :=
| g_nil d m : gives d m [] []
| g_cons d m r x rs xs : give d m r x -> gives d m rs xs -> gives d m (r :: rs) (x :: xs)
with give : nat -> mname -> N * wval -> message -> Prop :=
| g_unknown d m n w : (forall f, In f (fields m) -> f_num f <> n) -> give d m (n, w) [(n, PUnk w)]
| g_other d m f w : In f (fields m) -> ~ takes_value f w -> give d m (f_num f, w) [(f_num f, PUnk w)]
| g_int d m f k z : In f (fields m) -> int_value (f_ty f) k z -> give d m (f_num f, WVarint k) [(f_num f, PInt z)]
| g_packed d m f b ks zs : In f (fields m) -> f_card f = Rep -> integral (f_ty f) -> are_varints b ks -> Forall2 (int_value (f_ty f)) ks zs ->
    give d m (f_num f, WLen b) (map (fun z => (f_num f, PInt z)) zs)
| g_text d m f b : In f (fields m) -> f_ty f = TStr -> is_text b -> give d m (f_num f, WLen b) [(f_num f, PBytes b)]
| g_bytes d m f b : In f (fields m) -> f_ty f = TByt -> give d m (f_num f, WLen b) [(f_num f, PBytes b)]
| g_msg d m f sub b fs : In f (fields m) -> f_ty f = TMsg sub -> encodes d sub b fs ->
    give (S d) m (f_num f, WLen b) [(f_num f, PMsg fs)].

(** Every required field is there, also in the sub-messages. *)
Inductive complete : mname -> message -> Prop :=
| comp m fs :
    (forall f, In f (fields m) -> f_card f = Req -> exists v, In (f_num f, v) fs /\ forall w, v <> PUnk w) ->
    (forall f sub s, In f (fields m) -> f_ty f = TMsg sub -> In (f_num f, PMsg s) fs -> complete sub s) ->
    complete m fs.
(** [b] is a valid encoding of the message [fs] of type [m]; the parser allows a
    hundred levels of nesting. *)
Definition is_message (m : mname) (b : bytes) (fs : message) : Prop := encodes 100 m b fs /\ complete m fs.

(** * Frames
    A frame body - what follows the total size - says command [mc]: a size, the
    command of that many bytes, and either a payload section - six bytes of magic
    number and checksum, a size, metadata of that many bytes, data - or bytes that
    do not have this form, which are ignored. *)
Definition has_payload (after meta data : bytes) : Prop :=
  exists six, after = six ++ be32 (blen meta) ++ meta ++ data /\ blen six = 6 /\ blen meta < 2 ^ 32.
Definition frame_says (body : bytes) (mc : msg_cmd) : Prop :=
  exists cmd after, body = be32 (blen cmd) ++ cmd ++ after /\ blen cmd < 2 ^ 32 /\ is_message M_BaseCommand cmd (mc_cmd mc) /\
    match mc_payload mc with
    | Some p => exists meta, has_payload after meta (pl_data p) /\ is_message M_MessageMetadata meta (pl_meta p)
    | None => forall meta data, ~ has_payload after meta data
    end.
