(** Specification for C66: what version a config asks for. *)
From Verif Require Import Base.Tactics Base.Bytes Config.RapModel.
Local Open Scope N_scope.

(** The numbers [m * 2^(e-149)] with [m] below 2^24 and [e] up to 253 are the finite [f32] that are not negative. This one is
    a nearest to [d] hundredths: in hundredths of 2^-149, no other is nearer. *)
Definition apart (a b : N) : N := (a - b) + (b - a).
Definition f32_number (x : N) : Prop := exists m e, m < 2 ^ 24 /\ e <= 253 /\ x = m * 2 ^ e.
Definition nearest_to_hundredths (x d : N) : Prop :=
  f32_number x /\ forall y, f32_number y -> apart (100 * x) (d * 2 ^ 149) <= apart (100 * y) (d * 2 ^ 149).
(** The bits of a finite [f32] that is not negative: sign, eight bits of exponent, 23 of mantissa. *)
Definition f32_bits (bits x : N) : Prop :=
  (bits < 2 ^ 23 /\ x = bits) \/
  (exists e m, 1 <= e < 255 /\ m < 2 ^ 23 /\ bits = e * 2 ^ 23 + m /\ x = (2 ^ 23 + m) * 2 ^ (e - 1)).

Section Low.
  Context (low : bytes -> bytes) (cfgpatches requiredversion : bytes).
  (** The last entry that is called so and is a number with a fraction. *)
  Definition asks (ps : list property) (bits : N) : Prop :=
    exists l n e r, ps = l ++ Entry n (VNum (Float32 bits)) e :: r /\ low n = requiredversion /\
      forall n' b' e', In (Entry n' (VNum (Float32 b')) e') r -> low n' <> requiredversion.
  (** A class in a top-level CfgPatches. *)
  Definition patch_in (c : config) (n : bytes) (ps : list property) : Prop :=
    exists k kp qs kb p b, In (PClass (Local k kp qs kb)) c /\ low k = cfgpatches /\ In (PClass (Local n p ps b)) qs.
End Low.
