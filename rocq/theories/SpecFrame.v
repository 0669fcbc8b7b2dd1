(** Independent specification of the Pulsar frame format (Pulsar binary
    protocol documentation), used to state C01-C06 without the encoder,
    decoder, checksum or integer code of the model.

    Frame without payload:  total(4) cmdsize(4) cmd
    Frame with payload:     total(4) cmdsize(4) cmd 0x0e01(2) crc(4) metasize(4) meta data
    [total] counts every byte after itself; [crc] is the CRC-32C of everything
    after itself. *)
From Verif Require Import Bytes.
Open Scope N_scope.

(** Four bytes, most significant first. *)
Definition be32 (n : N) : bytes :=
  [n2b (n / 16777216); n2b (n / 65536); n2b (n / 256); n2b n].

(** CRC-32C as polynomial division. A register of 32 coefficients, x^31 first;
    the generator is x^32 + 0x1EDC6F41; bits enter least significant bit of
    each byte first; the register starts as all ones and is complemented at
    the end; the coefficient of x^31 is bit 0 of the result. *)
Definition gen_poly : list bool :=
  [false;false;false;true; true;true;true;false; true;true;false;true; true;true;false;false;
   false;true;true;false; true;true;true;true; false;true;false;false; false;false;false;true].
Fixpoint xor_bits (a b : list bool) : list bool :=
  match a, b with x :: a', y :: b' => xorb x y :: xor_bits a' b' | _, _ => [] end.
Definition div_step (reg : list bool) (bit : bool) : list bool :=
  match reg with
  | [] => []
  | top :: low => if xorb top bit then xor_bits (low ++ [false]) gen_poly else low ++ [false]
  end.
Definition byte_bits (b : byte) : list bool :=
  map (fun i => N.testbit (b2n b) i) [0;1;2;3;4;5;6;7].
Definition crc_register (data : bytes) : list bool :=
  map negb (fold_left div_step (flat_map byte_bits data) (repeat true 32)).
Fixpoint bits_value (l : list bool) : N :=
  match l with [] => 0 | b :: r => (if b then 1 else 0) + 2 * bits_value r end.
Definition spec_crc (data : bytes) : N := bits_value (crc_register data).

Example spec_crc_check : spec_crc (be32 0 ++ be32 0 ++ be32 0 ++ be32 0 ++ be32 0 ++ be32 0 ++ be32 0 ++ be32 0) = 0x8A9136AA.
Proof. vm_compute. reflexivity. Qed.  (* RFC 3720 B.4: 32 bytes of zeroes *)

(** The frame of a command and an optional (metadata, data) section. *)
Definition section_bytes (s : option (bytes * bytes)) : bytes :=
  match s with
  | None => []
  | Some (meta, data) =>
      let tail := be32 (blen meta) ++ meta ++ data in
      n2b 0x0e :: n2b 0x01 :: be32 (spec_crc tail) ++ tail
  end.
Definition frame_bytes (cmd : bytes) (s : option (bytes * bytes)) : bytes :=
  let body := be32 (blen cmd) ++ cmd ++ section_bytes s in
  be32 (blen body) ++ body.
(** Size that must fit the 32-bit size field. *)
Definition frame_total (cmd : bytes) (s : option (bytes * bytes)) : N :=
  4 + blen cmd + match s with None => 0 | Some (m, d) => 10 + blen m + blen d end.

(** A strict reader: checks every size, the magic number and the checksum,
    and accepts only when nothing is left. *)
Definition rd32 (b : bytes) : option (N * bytes) :=
  match b with
  | a :: b :: c :: d :: r => Some (((b2n a * 256 + b2n b) * 256 + b2n c) * 256 + b2n d, r)
  | _ => None
  end.
Definition cut (n : N) (b : bytes) : option (bytes * bytes) :=
  if n <=? blen b then Some (firstn (N.to_nat n) b, skipn (N.to_nat n) b) else None.
Definition strict_read (b : bytes) : option (bytes * option (bytes * bytes)) :=
  match rd32 b with
  | None => None
  | Some (total, body) =>
      if negb (blen body =? total) then None else
      match rd32 body with
      | None => None
      | Some (n, r) =>
          match cut n r with
          | None => None
          | Some (cmd, []) => Some (cmd, None)
          | Some (cmd, m1 :: m2 :: r1) =>
              if negb ((b2n m1 =? 0x0e) && (b2n m2 =? 0x01)) then None else
              match rd32 r1 with
              | None => None
              | Some (crc, tail) =>
                  if negb (crc =? spec_crc tail) then None else
                  match rd32 tail with
                  | None => None
                  | Some (k, r2) =>
                      match cut k r2 with
                      | None => None
                      | Some (meta, data) => Some (cmd, Some (meta, data))
                      end
                  end
              end
          | Some (_, _) => None
          end
      end
  end.
