(** PropUniF3Ex.v - a grid that meets the hypothesis of C133_points:
    -1 : 0.3 : 1 has 7 points. *)
From Coq Require Import Floats.
From Coq Require Import Reals Lra Lia ZArith List Bool.
From Verif Require Import Base ModelDas NumF NumR ExJob SpecDas SpecRound SpecRoundSir SpecUniF SpecUniFG ProofsR PropUniFEx PropUniF3.
Open Scope R_scope.

Example C133_points_ex : clear_grid (g_lo, g_pitch, g_hi) /\ grid_num (grid_val (g_lo, g_pitch, g_hi)) = 7%Z.
Proof.
  destruct C38_double_ex as ([F1 _] & [F2 _] & [F3 _] & LE & _ & HZ & _).
  assert (St : 6.6 < (val g_hi - val g_lo) / val g_pitch < 6.7) by (rewrite g_lo_val, g_hi_val, g_pitch_val; split; lra).
  split.
  - unfold clear_grid. cbv zeta. split; [exact F1|]. split; [exact F3|]. split; [exact F2|].
    split; [rewrite g_lo_val, Rabs_left, (p2_pos 98) by lra; simpl Z.pow; lra|].
    split; [rewrite g_hi_val, Rabs_pos_eq, (p2_pos 98) by lra; simpl Z.pow; lra|].
    split; [rewrite g_pitch_val, (p2_pos 98), (p2_neg 100); simpl Z.pow; split; lra|].
    split; [exact LE|]. split; [rewrite (p2_pos 30); simpl Z.pow; lra|right; exact HZ].
  - unfold grid_num, grid_val. rewrite (Zfloor_unique _ 6) by lra. reflexivity.
Qed.
