(** Fingerprints of interfaces. *)
From Verif Require Import Base ArithModel.

(** OPM.Mod 534-537: fp := ROT(fp / l, 1) with sets of 32 bits; LONGINT is a 32-bit type in the compiler. *)
Definition step (fp l : Z) : res Z := ROT (wrap_s 32 (Z.lxor (wrap_u 32 fp) (wrap_u 32 l))) 1 32.
(** OPM.Mod 530-539 [FingerprintBytes], over the 32-bit words of the bytes. *)
Fixpoint FingerprintWords (ws : list Z) (fp : Z) : res Z :=
  match ws with
  | [] => Ok fp
  | l :: ws => let* fp := step fp l in FingerprintWords ws fp
  end.
(** OPM.Mod 541 [FPrint]: a 64-bit value, two words in little-endian order.  542 [FPrintSet], 544 [FPrintLReal]: likewise for the bits of a set or LONGREAL. *)
Definition FPrint (fp v : Z) : res Z := FingerprintWords [wrap_s 32 v; wrap_s 32 (v / 2 ^ 32)] fp.
Fixpoint FPrints (vs : list Z) (fp : Z) : res Z :=
  match vs with
  | [] => Ok fp
  | v :: vs => let* fp := FPrint fp v in FPrints vs fp
  end.
(** OPT.Mod 494-498 [FPrintName]: the characters and the 0X. *)
Definition FPrintName (fp : Z) (name : list Z) : res Z := FPrints (name ++ [0]) fp.
(** OPT.Mod 632-646 [FPrintObj] for constants of the forms Bool, Char, Int (4) and Set (7): mode Con = 3, form, value. *)
Definition FPrintConst (form value : Z) : res Z := FPrints [3; form; value] 0.
