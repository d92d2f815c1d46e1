(** C34: the phase vocoder. *)
From Coq Require Import Reals ZArith Lia Lra List Bool.
From Verif.Base Require Import Imp RealOps.
From Verif.Maths Require Import RealSpec.
From Verif.Fft Require Import FftSpec.
From Verif.Vocoder Require Import PvModel PvSpec PvProofs PvResults.
Import ListNotations.
Open Scope Z_scope.

(** Even sizes construct, odd ones throw (from FFTReal). *)
Theorem C34_construction :
  forall n hop j1 j2 jc jt jr ji,
    (n mod 2 <> 0 -> pv_new n hop j1 j2 jc jt jr ji = Throw) /\
    (2 <= n < 2 ^ 31 -> n mod 2 = 0 -> zlen j1 = n / 2 -> zlen j2 = n / 2 -> zlen jc = n ->
       zlen jt = n -> zlen jr = n -> zlen ji = n -> exists o, pv_new n hop j1 j2 jc jt jr ji = OK o).
Proof. intros. split; [apply pv_odd|apply pv_constructed]. Qed.
Print Assumptions C34_construction.

(** A frame of samples, after any history: magnitude and argument of its transform about the middle
    of the frame, and the phase unwrapped from that of the previous frame. *)
Theorem C34_time_frame :
  forall n hop o th un src mag theta out, 2 <= n < 2 ^ 31 -> n mod 2 = 0 -> pv_run n hop o th un ->
    n <= zlen src -> n / 2 + 1 <= zlen mag -> n / 2 + 1 <= zlen theta -> n / 2 + 1 <= zlen out ->
    exists o' mag' theta' out', pv_time o src mag theta out = OK (o', mag', theta', out') /\
      pv_run n hop o' (zn 0%R theta') (zn 0%R out') /\
      kept (n / 2 + 1) mag' mag /\ kept (n / 2 + 1) theta' theta /\ kept (n / 2 + 1) out' out /\
      (forall k, 0 <= k <= n / 2 ->
         polar (alternate k * dft_re n (zn 0%R src) (fun _ => 0%R) k) (alternate k * dft_im n (zn 0%R src) (fun _ => 0%R) k)
               (zn 0%R mag' k) (zn 0%R theta' k) /\
         unwraps n hop k (un k) (zn 0%R theta' k) (zn 0%R out' k)).
Proof. exact pv_time_frame. Qed.
Print Assumptions C34_time_frame.

(** A frame of bins. *)
Theorem C34_frequency_frame :
  forall n hop o th un re im mag theta out, 2 <= n < 2 ^ 31 -> n mod 2 = 0 -> pv_run n hop o th un ->
    n / 2 + 1 <= zlen re -> n / 2 + 1 <= zlen im -> n / 2 + 1 <= zlen mag -> n / 2 + 1 <= zlen theta -> n / 2 + 1 <= zlen out ->
    exists o' mag' theta' out', pv_freq o re im mag theta out = OK (o', mag', theta', out') /\
      pv_run n hop o' (zn 0%R theta') (zn 0%R out') /\
      kept (n / 2 + 1) mag' mag /\ kept (n / 2 + 1) theta' theta /\ kept (n / 2 + 1) out' out /\
      (forall k, 0 <= k <= n / 2 -> polar (zn 0%R re k) (zn 0%R im k) (zn 0%R mag' k) (zn 0%R theta' k) /\
         unwraps n hop k (un k) (zn 0%R theta' k) (zn 0%R out' k)).
Proof. exact pv_freq_frame. Qed.
Print Assumptions C34_frequency_frame.

Theorem C34_reset :
  forall n hop o th un, 2 <= n < 2 ^ 31 -> n mod 2 = 0 -> pv_run n hop o th un -> exists o', pv_reset o = OK o'.
Proof. exact pv_reset_run. Qed.
Print Assumptions C34_reset.

(** After any sequence of frames and resets. *)
Theorem C34_congruent :
  forall n hop o th un, 2 <= n < 2 ^ 31 -> n mod 2 = 0 -> pv_run n hop o th un ->
    forall k, 0 <= k <= n / 2 -> same_angle (un k) (th k).
Proof. exact pv_congruent. Qed.
Print Assumptions C34_congruent.

(** There is only one such value; the first frame's is the measured phase itself. *)
Theorem C34_unwraps_unique :
  forall n hop k un th' x y, unwraps n hop k un th' x -> unwraps n hop k un th' y -> x = y.
Proof. exact unwraps_unique. Qed.
Print Assumptions C34_unwraps_unique.

Theorem C34_first_frame :
  forall n hop k th' un', (- PI < th' <= PI)%R -> unwraps n hop k (- advance n hop k) th' un' -> un' = th'.
Proof. exact pv_first. Qed.
Print Assumptions C34_first_frame.

(** If f is the unreduced phase of a component and it moves by less than half a turn more or less than
    the advance of the bin, the unwrapped phase moves by exactly as much. *)
Theorem C34_follows :
  forall n hop k un th th' un' f f', same_angle un th -> unwraps n hop k un th' un' ->
    same_angle f th -> same_angle f' th' -> (- PI < f' - f - advance n hop k <= PI)%R -> (un' - un = f' - f)%R.
Proof. exact pv_follows. Qed.
Print Assumptions C34_follows.

(** Size 2 and hop 1: bin 1 advances half a turn per frame; measured phases pi then 0 unwrap to pi then 2 pi. *)
Example C34_case :
  exists o th un o' mag theta out, pv_run 2 1 o th un /\
    pv_freq o [1; -1]%R [0; 0]%R [0; 0]%R [0; 0]%R [0; 0]%R = OK (o', mag, theta, out) /\ pv_run 2 1 o' (zn 0%R theta) (zn 0%R out) /\
    zn 0%R out 1 = PI /\ unwraps 2 1 1 (zn 0%R out 1) 0 (2 * PI).
Proof.
  pose proof PI_RGT_0 as P.
  destruct (pv_constructed 2 1 [(0, 0)]%R [(0, 0)]%R [(0, 0); (0, 0)]%R [0; 0]%R [0; 0]%R [0; 0]%R) as (o & E); try reflexivity; [lia|].
  assert (U : pv_run 2 1 o (fun k => - advance 2 1 k)%R (fun k => - advance 2 1 k)%R) by (eapply pr_new; [..|exact E]; reflexivity).
  destruct (pv_freq_frame 2 1 o _ _ [1; -1]%R [0; 0]%R [0; 0]%R [0; 0]%R [0; 0]%R ltac:(lia) eq_refl U)
    as (o' & mag & theta & out & F & U' & _ & _ & _ & V); try (cbv; discriminate).
  destruct (V 1) as ((A1 & A2 & A3 & A4 & _) & W); [split; [lia|reflexivity]|].
  change (zn 0%R [1; -1]%R 1) with (-1)%R in A2. change (zn 0%R [0; 0]%R 1) with 0%R in A3.
  assert (T : zn 0%R theta 1 = PI).
  { set (m := zn 0%R mag 1) in *. set (t := zn 0%R theta 1) in *.
    assert (S : sin t = 0%R) by (assert (m <> 0)%R by (intros ->; lra); nra).
    destruct (Req_dec t PI) as [|Np]; [assumption|exfalso].
    destruct (Rlt_le_dec t 0) as [N|N].
    - pose proof (sin_lt_0_var t ltac:(lra) N). lra.
    - destruct N as [N|N]; [pose proof (sin_gt_0 t N ltac:(lra)); lra|]. rewrite <- N, cos_0 in A2. lra. }
  assert (O : zn 0%R out 1 = PI) by (rewrite <- T; eapply pv_first; [|exact W]; auto).
  exists o, (fun k => - advance 2 1 k)%R, (fun k => - advance 2 1 k)%R, o', mag, theta, out.
  split; [exact U|]. split; [exact F|]. split; [exact U'|]. split; [exact O|].
  rewrite O. unfold unwraps, advance. split; [exists 1; lra|lra].
Qed.
