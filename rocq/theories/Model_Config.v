(** Model_Config.v - compile-time configuration of decwide_t (limb type, digits, exponent type)
    and the machine-integer casts used by the limb loops. *)
From Coq Require Export ZArith List Bool.
Export ListNotations.
Local Open Scope Z_scope.

(** The three limb types admitted by the library.
    Models: math/wide_decimal/decwide_t_detail.h 458-481 (decwide_t_helper_base static_assert/conditionals). *)
Inductive limb_t := U8 | U16 | U32.

(** Bit width of the limb type (std::uint8_t / uint16_t / uint32_t). *)
Definition lbits (l : limb_t) : Z := match l with U8 => 8 | U16 => 16 | U32 => 32 end.

(** Bit width of the double-limb type.
    Models: decwide_t_detail_ops.h 179-184, 257-262, 327-332 (local_double_limb_type). *)
Definition dbits (l : limb_t) : Z := match l with U8 => 16 | U16 => 32 | U32 => 64 end.

(** Decimal digits per limb. Models: decwide_t_detail.h 458-470 (elem_digits10). *)
Definition ed (l : limb_t) : Z := match l with U8 => 2 | U16 => 4 | U32 => 8 end.

(** Limb base. Models: decwide_t_detail.h 471-481 (elem_mask = 10^elem_digits10). *)
Definition mask (l : limb_t) : Z := match l with U8 => 100 | U16 => 10000 | U32 => 100000000 end.

(** Half-limb base. Models: decwide_t_detail.h 471-481 (elem_mask_half). *)
Definition mask_half (l : limb_t) : Z := match l with U8 => 10 | U16 => 100 | U32 => 10000 end.

(** Exponent types (std::int8_t .. std::int64_t). Models: decwide_t.h 545 and 520-560. *)
Inductive expo_t := E8 | E16 | E32 | E64.
Definition ebits (e : expo_t) : Z := match e with E8 => 8 | E16 => 16 | E32 => 32 | E64 => 64 end.

(** Models: decwide_t.h 545 (decwide_t_max_exp10). *)
Definition max_exp10_of (e : expo_t) : Z :=
  match e with E8 => 2 ^ (7 - 1) | E16 => 2 ^ (15 - 2) | E32 => 2 ^ (31 - 3) | E64 => 2 ^ (63 - 4) end.

(** One instantiation decwide_t<ParamDigitsBaseTen, LimbType, ..., ExponentType, ...>. *)
Record cfg := mkCfg { c_limb : limb_t; c_digits10 : Z; c_expo : expo_t }.

(** Models: decwide_t_detail.h 489-505 (elem_number0 and elem_number). *)
Definition elem_number (c : cfg) : Z :=
  let e := ed (c_limb c) in
  (c_digits10 c / e + (if c_digits10 c mod e =? 0 then 0 else 1)) + 3.

(** Models: decwide_t.h 542-543. *)
Definition elems_for_kara : Z := 112 + 1.
Definition elems_for_fft : Z := 1792 + 1.

(** Unsigned cast to [w] bits (C++ static_cast to an unsigned type). *)
Definition ucast (w x : Z) : Z := x mod 2 ^ w.

(** Signed cast to [w] bits (C++ static_cast to a signed type, two's complement). *)
Definition scast (w x : Z) : Z := (x + 2 ^ (w - 1)) mod 2 ^ w - 2 ^ (w - 1).
