(** One step of somebody at a wall: the depth, and the speed into the wall. *)
From Coq Require Import Reals Lra Psatz.
Open Scope R_scope.

Section Step.
  (* [c] is the damping over the mass, [240 * c] the compression constant over the mass *)
  Variable c : R.
  Hypothesis C1 : 50/9 <= c.
  Hypothesis C2 : c <= 10.
  Definition pushed (p y yo g : R) : R := g - (y + yo) + (if Rlt_dec 0 p then c * ((y + yo) / 2) - 240 * c * p else 0).
  Definition W0 := 19/10.
  Definition W1 := 259/100.
  Definition CL := 463/100.
  (* depth p, speed inwards y after the step, yo before it *)
  Definition held (p y yo : R) : Prop :=
    p <= 463/3400 /\ y + 34 * p <= CL /\ y <= W1 /\ (p <= 0 -> y <= W0 /\ -15 <= y) /\ (0 < p -> y <= W0 + 115/10 * p /\ -13 + 40 * p <= y) /\
    y - yo <= 34/100 /\ yo <= W1 /\ -15 <= yo.
  Lemma held_step p y yo g : held p y yo -> Rabs g <= 34/10 ->
    let y' := y + pushed p y yo g / 100 in held (p + y' / 100) y' y.
  Proof.
    intros (P & L & Y1 & F & K & A & O1 & O2) Hg. assert (G1 : -(34/10) <= g /\ g <= 34/10) by (revert Hg; unfold Rabs; destruct (Rcase_abs g); lra). destruct G1 as [G1 G2]. unfold pushed, held, W0, W1, CL in *.
    destruct (Rlt_dec 0 p) as [H|H]; cbv zeta.
    - destruct (K H) as [K1 K2]. clear F K. assert (Ylow : -13 <= y) by lra.
      set (b := g - (y + yo) + (c * ((y + yo) / 2) - 240 * c * p)).
      pose proof (fun u v (U : 0 <= u) (V : 0 <= v) => Rmult_le_pos u v U V) as MUL.
      assert (B1 : b <= 34/10 + (c - 2) * ((y + 259/100) / 2) - 240 * c * p).
      { unfold b. pose proof (MUL (c - 2) (259/100 - yo) ltac:(lra) ltac:(lra)). lra. }
      assert (B2 : b <= 34/10 + 8 * (259/100)).
      { pose proof (MUL (c - 2) (259/100 - y) ltac:(lra) ltac:(lra)). pose proof (MUL c p ltac:(lra) ltac:(lra)). lra. }
      assert (B4 : -(34/10) + (c - 2) * ((-13 + 40 * p - 15) / 2) - 240 * c * p <= b).
      { unfold b. pose proof (MUL (c - 2) (y + yo - (-13 + 40 * p - 15)) ltac:(lra) ltac:(lra)). lra. }
      assert (B5 : -(34/10) + 8 * ((-13 + 40 * p - 15) / 2) - 2400 * p <= b).
      { pose proof (MUL (10 - c) (28 - 40 * p) ltac:(lra) ltac:(lra)). pose proof (MUL (10 - c) p ltac:(lra) ltac:(lra)). lra. }
      clearbody b. set (y' := y + b / 100) in *.
      assert (S1 : y' <= 19/10 + 115/10 * (p + y' / 100) \/ y' <= 0).
      { destruct (Rle_dec y' 0); auto. left. unfold y' in *. lra. }
      assert (S2 : y' + 34 * (p + y' / 100) <= 463/100).
      { unfold y'. destruct (Rle_dec p (6/100)) as [Q|Q].
        - assert (X : b <= 34/10 + (c - 2) * ((19/10 + 115/10 * p + 259/100) / 2) - 240 * c * p).
          { pose proof (MUL (c - 2) (19/10 + 115/10 * p - y) ltac:(lra) ltac:(lra)). lra. }
          destruct (Rle_dec p (1/100)); [lra|]. pose proof (MUL (c - 50/9) (p - 1/100) ltac:(lra) ltac:(lra)). lra.
        - assert (X : b <= 34/10 + (c - 2) * (259/100) - 240 * c * p).
          { pose proof (MUL (c - 2) (259/100 - y) ltac:(lra) ltac:(lra)). lra. }
          pose proof (MUL c (p - 6/100) ltac:(lra) ltac:(lra)). lra. }
      assert (S3 : -13 + 40 * (p + y' / 100) <= y' \/ p + y'/100 <= 0).
      { destruct (Rle_dec (p + y' / 100) 0); auto. left. unfold y' in *. lra. }
      assert (S4 : -15 <= y') by (unfold y'; lra).
      clear B1 B4 B5. assert (U1 : p + y' / 100 <= 463/3400) by (destruct (Rle_dec y' 0); lra).
      assert (U2 : y' <= 259/100) by (destruct (Rle_dec (p + y' / 100) (6/100)); [|lra]; destruct S1; lra).
      split; [exact U1|]. split; [exact S2|]. split; [exact U2|]. split; [intros; split; [|exact S4]; destruct S1; lra|].
      split; [intros; split; [destruct S1; lra|destruct S3; lra]|]. split; [unfold y'; lra|]. split; lra.
    - assert (p <= 0) as H0 by lra. destruct (F H0) as [F1 F2]. clear K F. set (b := g - (y + yo) + 0).
      assert (B1 : b <= 334/10) by (unfold b; lra).
      assert (B2 : y + b / 100 <= 19/10) by (unfold b; lra).
      assert (B3 : -15 <= y + b / 100) by (unfold b; lra).
      clearbody b. set (y' := y + b / 100) in *. split; [lra|]. split; [lra|]. split; [lra|]. split; [intros; lra|]. split; [intros; lra|]. split; [unfold y'; lra|]. split; lra.
  Qed.
End Step.
