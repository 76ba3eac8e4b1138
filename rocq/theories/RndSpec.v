(** Specification for the models with rounding (C84, C85): floating-point formats. *)
From Coq Require Import ZArith Reals.
From Flocq Require Import Core.
Open Scope R_scope.

(** Numbers m 2^e with |m| < 2^prec and emin <= e: binary64 is [number (-1074) 53], binary32 is
    [number (-149) 24]; there is no greatest number. *)
Definition number (emin prec : Z) (x : R) : Prop :=
  exists m e, x = IZR m * bpow radix2 e /\ (Z.abs m < 2 ^ prec)%Z /\ (emin <= e)%Z.
(** Rounding to a nearest number, ties to even. *)
Definition nearest (emin prec : Z) (x : R) : R := round radix2 (FLT_exp emin prec) ZnearestE x.
(** Half the distance of 1 to the next number. *)
Definition unit_roundoff (prec : Z) : R := bpow radix2 (- prec).
