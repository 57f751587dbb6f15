(** Refute_str.v - concrete texts: witnesses for the theorems and inputs on which text input/output departs
    from the claims. *)
From Coq Require Import String Ascii.
From Verif Require Import Witness.
From Verif Require Export Print4_proofs.
From Coq Require Import Lia.
Local Open Scope Z_scope.

(** Characters of a Coq string literal as ASCII codes. *)
Fixpoint txt (s : string) : list Z :=
  match s with EmptyString => [] | String a t => Z.of_nat (nat_of_ascii a) :: txt t end.

(** 9 digits, 32-bit limbs, 8-bit exponent. *)
Definition c9e8 : cfg := mkCfg U32 9 E8.
(** A format with the given notation, precision and showpoint; no other flags. *)
Definition plain (fld : ffield) (p : Z) (sp : bool) : fmt := mkFmt fld p false false sp 0 32 false.
(** -123.456e7 *)
Definition lit1 : literal := mkLit (Some true) [1; 2; 3] (Some [4; 5; 6]) (Some (false, None, [7])).
Definition xs1 : dec := mkx c50 true 8 [12; 34560000].
(** 0.00012345 *)
Definition xs2 : dec := mkx c50 false (-8) [12345].
Definition fsci : fmt := mkFmt FScientific 4 true true false 16 42 true.

Lemma lit1_case : lit_text lit1 = txt "-123.456e7" /\ lit_ok lit1 /\ lit_fits c50 lit1 /\
  lit_value lit1 == -1234560000 # 1 /\ rd_string c50 (lit_text lit1) = Some xs1.
Proof.
  split; [reflexivity|]. split; [repeat constructor; cbn; lia|]. split; [split; vm_compute; reflexivity|].
  split; [vm_compute; reflexivity|vm_compute; reflexivity].
Qed.

Lemma xs1_normal : normal c50 xs1. Proof. apply normal_b_sound. reflexivity. Qed.
Lemma xs2_normal : normal c50 xs2. Proof. apply normal_b_sound. reflexivity. Qed.
Lemma c50_ok_s : cfg_ok c50. Proof. split; [cbn; lia|vm_compute; reflexivity]. Qed.
Lemma xs1_lead : leading_exponent (value c50 xs1) 9.
Proof. split; vm_compute; [discriminate|reflexivity]. Qed.
Lemma print_case : cfg_ok c50 /\ normal c50 xs1 /\ iszero xs1 = false /\ leading_exponent (value c50 xs1) 9 /\
  print_fits c50 fsci 9 /\ showpoint_ok c50 fsci 9 /\
  wr_string c50 fsci xs1 = Some (txt "-1.2346E+009****") /\
  wr_string c50 (plain FFixed 2 false) xs1 = Some (txt "-1234560000.00") /\
  wr_string c50 (plain FNone 6 false) xs1 = Some (txt "-1.23456e+009") /\
  wr_string c50 (plain FNone 6 true) xs2 = Some (txt "0.000123450").
Proof.
  split; [exact c50_ok_s|]. split; [exact xs1_normal|]. split; [reflexivity|]. split; [exact xs1_lead|].
  split; [vm_compute; reflexivity|]. split; [intros H; discriminate H|].
  repeat split; vm_compute; reflexivity.
Qed.

Lemma roundtrip_case : let f := plain FScientific 20 false in
  normal c50 xs1 /\ leading_exponent (value c50 xs1) 9 /\ print_fits c50 f 9 /\ showpoint_ok c50 f 9 /\ f_width f <= 0 /\
  Z.abs 9 + 2 * Z.max 6 (f_prec f) + c_digits10 c50 + 36 < 2 ^ 30 /\
  (exists m : Z, value c50 xs1 == inject_Z m * p10 (9 - sig_digits c50 f 9 + 1))%Q.
Proof.
  cbv zeta. split; [exact xs1_normal|]. split; [exact xs1_lead|].
  split; [vm_compute; reflexivity|]. split; [intros H; discriminate H|]. split; [cbn; lia|]. split; [vm_compute; reflexivity|].
  exists (-123456 * 10 ^ 15). vm_compute. reflexivity.
Qed.

(** Exponents beyond the exponent type wrap: 1e128 is read as 1e-128, 1e-300 as about 1e-44. *)
Lemma parse_wraps : rd_string c9e8 (txt "1e128") = rd_string c9e8 (txt "1e-128") /\
  (exists z, rd_string c9e8 (txt "1e300") = Some z /\ iszero z = false /\ value c9e8 z == p10 44).
Proof.
  split; [vm_compute; reflexivity|]. eexists. split; [vm_compute; reflexivity|]. split; vm_compute; reflexivity.
Qed.
(** Texts that are no literals are accepted. *)
Lemma parse_accepts : rd_string c50 [] = Some (zero c50) /\ rd_string c50 (txt "-") = Some (set_neg (zero c50) true) /\
  rd_string c50 (txt "1-2+3") = Some (mkx c50 true 0 [123]) /\ rd_string c50 (txt "hello") = Some (zero c50) /\
  rd_string c50 (txt "1.2.3") = Some (mkx c50 false 0 [1; 2]).
Proof. repeat split; vm_compute; reflexivity. Qed.

Lemma format_wrong :
  wr_string c50 (plain FFixed 2 false) xs2 = Some (txt "0.00012") /\
  wr_string c50 (plain FFixed 0 false) (mkx c50 false 0 [2; 50000000]) = Some (txt "2.500000") /\
  wr_string c50 (plain FNone 2 false) (mkx c50 false 0 [12345]) = Some (txt "12000") /\
  wr_string c50 (plain FNone 2 true) (mkx c50 false 0 [12345]) = None /\
  wr_string c50 (plain FScientific 3 false) (mkDec (repeat 0 10) (-8) false 10) = Some (txt "0.000e-008") /\
  wr_string c9e8 (plain FScientific 3 false) (mkx c9e8 false (-128) [1]) = Some (txt "1.000e-018446744073709551488").
Proof. repeat split; vm_compute; reflexivity. Qed.
