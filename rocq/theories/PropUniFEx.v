(** PropUniFEx.v - a grid that meets the hypotheses of C38_double_partial:
    -1 : 0.3 : 1 in doubles has floor(2 / 0.3) + 1 = 7 points. *)
From Coq Require Import Floats.
From Coq Require Import Reals Lra Lia ZArith List Bool.
From Verif Require Import Base ModelDas NumF NumR ExJob SpecRound SpecRoundSir ProofsR PropUniF.
Open Scope R_scope.

Definition g_lo : PrimFloat.float := (-1)%float.
Definition g_pitch : PrimFloat.float := 0x1.3333333333333p-2%float.
Definition g_hi : PrimFloat.float := 1%float.

Lemma g_lo_val : val g_lo = -1.
Proof. unfold val. replace (Prim2SF g_lo) with (S754_finite true 4503599627370496 (-52)) by (vm_compute; reflexivity). cbv [powerRZ Pos.to_nat Pos.iter_op Nat.add]. lra. Qed.
Lemma g_hi_val : val g_hi = 1.
Proof. unfold val. replace (Prim2SF g_hi) with (S754_finite false 4503599627370496 (-52)) by (vm_compute; reflexivity). cbv [powerRZ Pos.to_nat Pos.iter_op Nat.add]. lra. Qed.
Lemma g_pitch_val : val g_pitch = 5404319552844595 / 18014398509481984.
Proof. unfold val. replace (Prim2SF g_pitch) with (S754_finite false 5404319552844595 (-54)) by (vm_compute; reflexivity). cbv [powerRZ Pos.to_nat Pos.iter_op Nat.add]. lra. Qed.

Lemma pow_pos k : powerRZ 2 (Z.pos k) = IZR (2 ^ Z.pos k).
Proof. rewrite <- (positive_nat_Z k), <- pow_powerRZ, pow_IZR. reflexivity. Qed.
Lemma pow_neg k : powerRZ 2 (Z.neg k) = / IZR (2 ^ Z.pos k).
Proof. rewrite <- pow_pos. unfold powerRZ. reflexivity. Qed.

Example C38_double_ex :
  ordinary g_lo /\ ordinary g_hi /\ ordinary_pos g_pitch /\ val g_lo <= val g_hi /\
  (val g_hi - val g_lo) / val g_pitch + 1 <= powerRZ 2 50 /\
  (forall z : Z, 2 * eps * ((val g_hi - val g_lo) / val g_pitch + 1) < Rabs ((val g_hi - val g_lo) / val g_pitch - IZR z)) /\
  uni_count (N:=FI) UnsignedIdx g_lo g_pitch g_hi = Ok 7%Z.
Proof.
  assert (O1 : ordinary g_lo) by (split; [vm_compute; reflexivity|rewrite g_lo_val, Rabs_left, (pow_pos 100) by lra; simpl Z.pow; lra]).
  assert (O2 : ordinary g_hi) by (split; [vm_compute; reflexivity|rewrite g_hi_val, Rabs_pos_eq, (pow_pos 100) by lra; simpl Z.pow; lra]).
  assert (O3 : ordinary_pos g_pitch) by (split; [vm_compute; reflexivity|rewrite g_pitch_val, (pow_pos 100), (pow_neg 100); simpl Z.pow; split; lra]).
  assert (LE : val g_lo <= val g_hi) by (rewrite g_lo_val, g_hi_val; lra).
  assert (St : 6.6 < (val g_hi - val g_lo) / val g_pitch < 6.7) by (rewrite g_lo_val, g_hi_val, g_pitch_val; split; lra).
  assert (HS : (val g_hi - val g_lo) / val g_pitch + 1 <= powerRZ 2 50) by (rewrite (pow_pos 50); simpl Z.pow; lra).
  assert (HZ : forall z : Z, 2 * eps * ((val g_hi - val g_lo) / val g_pitch + 1) < Rabs ((val g_hi - val g_lo) / val g_pitch - IZR z)).
  { intros z. unfold eps. rewrite (pow_neg 52). simpl Z.pow.
    destruct (Z_le_gt_dec z 6) as [H|H].
    - assert (IZR z <= 6) by (apply IZR_le; lia). rewrite Rabs_pos_eq by lra. lra.
    - assert (7 <= IZR z) by (apply IZR_le; lia). rewrite Rabs_left by lra. lra. }
  destruct (C38_double_partial (@Datatypes.id PrimFloat.float) (@Datatypes.id PrimFloat.float) (@Datatypes.id PrimFloat.float) (@Datatypes.id PrimFloat.float) (@Datatypes.id PrimFloat.float) (@Datatypes.id PrimFloat.float) (@Datatypes.id PrimFloat.float) UnsignedIdx g_lo g_pitch g_hi O1 O2 O3 LE HS) as (n & En & _ & En' & _).
  split; [exact O1|]. split; [exact O2|]. split; [exact O3|]. split; [exact LE|]. split; [exact HS|]. split; [exact HZ|]. rewrite (En' HZ) in En. etransitivity; [exact En|]. f_equal.
  rewrite (Zfloor_unique _ 6) by lra. reflexivity.
Qed.
