(** C35, C58, C59, C60: smoothing of detection functions, picking of peaks, norms. *)
From Coq Require Import Reals ZArith Lia Lra List Bool.
From Verif.Base Require Import Imp Sums RealOps Loops.
From Verif.Signal Require Import FilterModel FilterSpec FiltFiltSpec.
From Verif.Maths Require Import MedianSpec RealSpec NormModel NormSpec NormProofs.
From Verif.Onset Require Import PeakModel PeakSpec PeakProofs DfResults PickProofs PickResults DfEdges.
Import ListNotations.
Open Scope Z_scope.

(** *** C58: smoothing *)

(** Any sequence of calls: each removes the minimum, divides by the norm, filters forwards and backwards
    (the filter going on from the call before), subtracts the running median and the threshold. *)
Theorem C58_smoothing_calls :
  forall n pre post alpha positive delta a b, accepted a b -> fir_or_order1 a b -> 0 <= pre -> 0 <= post -> pre + post < n -> 1 <= alpha ->
  forall junk calls, (forall scratch src dst, In (scratch, src, dst) calls -> call_ok n scratch src dst) ->
    exists o outs ds rs, dfp_new n a b pre post alpha positive delta junk = OK o /\ dfp_calls o calls = OK outs /\
      smoothings n pre post alpha positive delta calls ds rs outs /\ chained 0%R 2%R Rplus Rminus Rmult a b [] [] ds rs.
Proof. intros. apply smoothing_calls; assumption. Qed.
Print Assumptions C58_smoothing_calls.

Theorem C58_smoothing_first :
  forall n pre post alpha positive delta a b, accepted a b -> fir_or_order1 a b -> 0 <= pre -> 0 <= post -> pre + post < n -> 1 <= alpha ->
  forall junk scratch src dst, call_ok n scratch src dst ->
    exists o o' out d r, dfp_new n a b pre post alpha positive delta junk = OK o /\ dfp_process o scratch src dst = OK (o', out) /\
      smoothing n pre post alpha positive delta src dst d r out /\ zero_phase 0%R 2%R Rplus Rminus Rmult a b d r.
Proof. intros. apply smoothing_first; assumption. Qed.
Print Assumptions C58_smoothing_first.

(** Data shorter than the median window: memory outside the buffers is accessed. *)
Theorem C58_short_data_refuted :
  forall n pre post alpha positive delta a b junk scratch src dst,
    accepted a b -> fir_or_order1 a b -> 1 <= pre -> 1 <= post -> 1 <= n < pre + post -> 1 <= alpha ->
    zlen scratch = n -> n <= zlen src -> (exists i, 0 <= i < n /\ zn 0%R src i <> 0%R) ->
    exists o, dfp_new n a b pre post alpha positive delta junk = OK o /\ dfp_process o scratch src dst = UB.
Proof. exact smoothing_overrun. Qed.
Print Assumptions C58_short_data_refuted.

(** A witness: the default window of seven before and seven after, thirteen values. *)
Example C58_short_data_witness :
  exists o, dfp_new 13 [] [1%R] 7 7 9 false 0%R (fun _ => 0%R) = OK o /\ dfp_process o (repeat 0%R 13) (repeat 1%R 13) (repeat 0%R 13) = UB.
Proof.
  apply C58_short_data_refuted; try lia; try reflexivity.
  - left. split; [reflexivity|discriminate].
  - left. reflexivity.
  - exists 0. split; [lia|]. exact R1_neq_R0.
Qed.

(** No values after: any number before. *)
Theorem C58_none_after :
  forall n pre alpha positive delta a b junk scratch src dst, accepted a b -> fir_or_order1 a b -> 1 <= n -> 1 <= alpha -> 0 <= pre ->
    call_ok n scratch src dst ->
    exists o o' out d r, dfp_new n a b pre 0 alpha positive delta junk = OK o /\ dfp_process o scratch src dst = OK (o', out) /\
      smoothing n pre 0 alpha positive delta src dst d r out /\ zero_phase 0%R 2%R Rplus Rminus Rmult a b d r.
Proof. intros. apply smoothing_none_after; auto. Qed.
Print Assumptions C58_none_after.
Example C58_none_after_case :
  exists o o' out d r, dfp_new 3 [] [1%R] 7 0 9 false 0%R (fun _ => 0%R) = OK o /\ dfp_process o (repeat 0%R 3) (repeat 1%R 3) (repeat 0%R 3) = OK (o', out) /\
      smoothing 3 7 0 9 false 0%R (repeat 1%R 3) (repeat 0%R 3) d r out /\ zero_phase 0%R 2%R Rplus Rminus Rmult [] [1%R] d r.
Proof.
  apply C58_none_after; try lia; try (left; split; [reflexivity|discriminate]); [left; reflexivity|].
  unfold call_ok. repeat split; try (cbn; lia). exists 0. split; [lia|]. exact R1_neq_R0.
Qed.

(** As many values as the window spans: right but at position [pre], whose window lacks the first value. *)
Theorem C58_equal_length :
  forall n pre post alpha positive delta a b junk scratch src dst, accepted a b -> fir_or_order1 a b -> 1 <= alpha ->
    1 <= pre -> 1 <= post -> pre + post = n -> call_ok n scratch src dst ->
    exists o o' out d r, dfp_new n a b pre post alpha positive delta junk = OK o /\ dfp_process o scratch src dst = OK (o', out) /\
      zlen d = n /\ zlen r = n /\ conditioned n alpha (zn 0%R src) (zn 0%R d) /\ zero_phase 0%R 2%R Rplus Rminus Rmult a b d r /\
      (forall t, 0 <= t < n -> exists m, is_median (if t =? pre then ztab (n - 1) (fun j => zn 0%R r (1 + j)) else around n pre post (zn 0%R r) t) m /\
         zn 0%R out t = (if positive then Rmax 0 (zn 0%R r t - m - delta) else zn 0%R r t - m - delta)%R) /\
      zlen out = zlen dst /\ skipn (Z.to_nat n) out = skipn (Z.to_nat n) dst.
Proof. intros. apply smoothing_equally_long; auto. lia. Qed.
Print Assumptions C58_equal_length.

(** A witness: two values, one before and one after. *)
Theorem C58_equal_length_refuted :
  forall junk scratch, zlen scratch = 2 ->
    exists o o' out, dfp_new 2 [] [1%R] 1 1 1 false 0%R junk = OK o /\ dfp_process o scratch [0; 2]%R [0; 0]%R = OK (o', out) /\
      forall d r, zero_phase 0%R 2%R Rplus Rminus Rmult [] [1%R] d r -> ~ smoothing 2 1 1 1 false 0%R [0; 2]%R [0; 0]%R d r out.
Proof. exact equally_long_refuted. Qed.
Print Assumptions C58_equal_length_refuted.

(** No values before and a window as long as the data: the last result is arbitrary, depending on what
    uninitialised memory contained. *)
Theorem C58_uninitialised_refuted :
  forall n post alpha delta a b junk src dst, accepted a b -> fir_or_order1 a b -> 1 <= n -> 1 <= alpha -> n <= post ->
    n <= zlen src -> n <= zlen dst -> (exists i, 0 <= i < n /\ zn 0%R src i <> 0%R) ->
    forall v, exists scratch o o' out, zlen scratch = n /\ dfp_new n a b 0 post alpha false delta junk = OK o /\
      dfp_process o scratch src dst = OK (o', out) /\ zn 0%R out (n - 1) = v.
Proof. intros. apply smoothing_uninitialised; auto. Qed.
Print Assumptions C58_uninitialised_refuted.
Example C58_uninitialised_witness :
  exists scratch o o' out, zlen scratch = 3 /\ dfp_new 3 [] [1%R] 0 7 9 false 0%R (fun _ => 0%R) = OK o /\
      dfp_process o scratch (repeat 1%R 3) (repeat 0%R 3) = OK (o', out) /\ zn 0%R out 2 = 12345%R.
Proof.
  apply (C58_uninitialised_refuted 3); try lia; try (left; split; [reflexivity|discriminate]); try (cbn; lia); [left; reflexivity|].
  exists 0. split; [lia|]. exact R1_neq_R0.
Qed.

(** *** C35: picking *)

(** Any object, used any number of times: the onsets appended are, in increasing order, exactly the
    positive strict local maxima of the smoothed function whose parabola is bent or high enough; the
    caller's data become the smoothed function. *)
Theorem C35_onsets :
  forall n pre post alpha delta qa qc a b, accepted a b -> fir_or_order1 a b -> 0 <= pre -> 0 <= post -> pre + post < n -> 1 <= alpha ->
  forall o scratch src len onsets, pp_run n pre post alpha delta qa qc a b o -> call_ok n scratch src (pp_work o) -> 4 <= len <= n ->
    exists o' src' found xs ys, pp_process o scratch src len onsets = OK (o', src', onsets ++ found) /\ pp_run n pre post alpha delta qa qc a b o' /\
      is_response 0%R Rplus Rminus Rmult a b xs ys /\ pp_effect n pre post alpha delta qa qc a b xs ys scratch src len src' found.
Proof. intros. apply pp_onsets; assumption. Qed.
Print Assumptions C35_onsets.

(** A new object: the filter starts from rest. *)
Theorem C35_first :
  forall n pre post alpha delta qa qc a b, accepted a b -> fir_or_order1 a b -> 0 <= pre -> 0 <= post -> pre + post < n -> 1 <= alpha ->
  forall junk scratch src len onsets, zlen scratch = n -> n <= zlen src -> (exists i, 0 <= i < n /\ zn 0%R src i <> 0%R) -> 4 <= len <= n ->
    exists o o' src' found, pp_new n a b pre post alpha delta qa qc junk = OK o /\ pp_process o scratch src len onsets = OK (o', src', onsets ++ found) /\
      pp_effect n pre post alpha delta qa qc a b [] [] scratch src len src' found.
Proof. intros. apply pp_first; assumption. Qed.
Print Assumptions C35_first.

Theorem C35_short :
  forall o scratch src len onsets, len < 4 -> pp_process o scratch src len onsets = OK (o, src, onsets).
Proof. exact pp_short. Qed.
Print Assumptions C35_short.

(** The length passed must not exceed the configured one ... *)
Theorem C35_longer_refuted :
  forall n pre post alpha delta qa qc a b, accepted a b -> fir_or_order1 a b -> 0 <= pre -> 0 <= post -> pre + post < n -> 1 <= alpha ->
  forall o scratch src len onsets, pp_run n pre post alpha delta qa qc a b o -> call_ok n scratch src (pp_work o) -> 4 <= len -> n < len ->
    pp_process o scratch src len onsets = UB.
Proof. intros. apply (pp_too_long n pre post alpha delta qa qc a b); assumption. Qed.
Print Assumptions C35_longer_refuted.

(** ... and the data must hold the configured length, whatever length is passed. *)
Theorem C35_data_refuted :
  forall n pre post alpha delta qa qc a b, accepted a b -> fir_or_order1 a b -> 0 <= pre -> 0 <= post -> pre + post < n -> 1 <= alpha ->
  forall o scratch src len onsets, pp_run n pre post alpha delta qa qc a b o -> 4 <= len -> zlen src < n ->
    pp_process o scratch src len onsets = UB.
Proof. intros. apply (pp_short_data n pre post alpha delta qa qc a b); assumption. Qed.
Print Assumptions C35_data_refuted.

(** The heights and bends of [is_onset] are those of the least-squares parabola. *)
Theorem C35_parabola :
  forall s i, exists slope, forall c0 c1 c2,
    (rsum 5 (fun j => Rsqr (parabola_height s i + slope * IZR (j - 2) + parabola_bend s i * Rsqr (IZR (j - 2)) - s (i + (j - 2))%Z))
     <= rsum 5 (fun j => Rsqr (c0 + c1 * IZR (j - 2) + c2 * Rsqr (IZR (j - 2)) - s (i + (j - 2))%Z)))%R.
Proof. exact parabola_least. Qed.
Print Assumptions C35_parabola.

(** One peak. *)
Example C35_example :
  exists o o' src', pp_new 5 [] [1%R] 1 1 1 0 0 0 (fun _ => 0%R) = OK o /\
    pp_process o (repeat 0%R 5) [0; 0; 1; 0; 0]%R 5 [] = OK (o', src', [2]).
Proof.
  destruct (C35_first 5 1 1 1 0 0 0 [] [1%R]) with (junk := fun _ : Z => 0%R) (scratch := repeat 0%R 5) (src := [0; 0; 1; 0; 0]%R) (len := 5) (onsets := @nil Z)
    as (o & o' & src' & found & E1 & E2 & (d & r & s & Ld & Lr & Ls & (mn & N & Hmn & HN & N0 & Hd) & (y & z & Ly & Hy & Hz & Er) & Ht & _ & Hinc & Hin)); try lia.
  { left. split; [reflexivity|discriminate]. }
  { left. reflexivity. }
  { reflexivity. }
  { cbn. lia. }
  { exists 2. split; [lia|]. exact R1_neq_R0. }
  exists o, o', src'. split; [exact E1|]. rewrite E2. cbn [app].
  assert (M0 : mn = 0%R).
  { destruct Hmn as ((k & Hk & Ek) & Hmn). pose proof (Hmn 0 ltac:(lia)) as B0. cbn in B0.
    assert (C : k = 0 \/ k = 1 \/ k = 2 \/ k = 3 \/ k = 4) by lia. destruct C as [-> |[-> |[-> |[-> | ->]]]]; cbv -[IZR] in Ek; lra. }
  assert (NN : N = (1 / 5)%R).
  { destruct HN as (A & B). rewrite rsum_5 in B. cbv -[IZR Rplus Rmult Rabs] in B. rewrite Rabs_R0, Rabs_R1 in B. lra. }
  assert (Hd' : d = [0; 0; 5; 0; 0]%R).
  { apply (zn_ext 0%R); [exact Ld|]. intros i Hi. rewrite Hd by lia. subst mn N.
    assert (C : i = 0 \/ i = 1 \/ i = 2 \/ i = 3 \/ i = 4) by lia. destruct C as [-> |[-> |[-> |[-> | ->]]]]; cbv -[IZR Rplus Rmult Rminus Rdiv]; lra. }
  assert (Id : forall x u, is_response 0%R Rplus Rminus Rmult [] [1%R] x u -> u = x).
  { intros x u (Lu & Hu). apply (zn_ext 0%R); [exact Lu|]. intros i Hi. rewrite Hu by lia. unfold diff_eq_at. change (zlen [1%R]) with 1. change (fsum 0%R Rplus 1 (fun i0 => (zn 0 [1] i0 * zn 0 x (i - i0))%R)) with (0 + 1 * zn 0 x (i - 0)%Z)%R. rewrite Z.sub_0_r. ring. }
  cbn [app] in Hy. apply Id in Hy. apply Id in Hz. subst y z. rewrite rev_involutive in Er.
  assert (Hr : r = [0; 0; 5; 0; 0]%R).
  { rewrite Er, Hd'. change (3 * (zlen [1%R] - 1)) with 0. apply (zn_ext 0%R); [reflexivity|]. intros i Hi. change (zlen _) with 5 in Hi.
    rewrite <- Hd'. rewrite zn_firstn by (unfold zlen in Ld; lia). cbn [skipn Z.to_nat]. unfold extended. rewrite Ld. rewrite zn_ztab by lia.
    unfold reflect_at. rewrite Z.sub_0_r, Ld. destruct (Z.ltb_spec i 0); [lia|]. destruct (Z.ltb_spec i 5); [reflexivity|lia]. }
  clear Er. subst r.
  assert (K : forall l v k, l = [0; 0]%R \/ l = [0; 0; 5]%R \/ l = [0; 5; 0]%R \/ l = [5; 0; 0]%R -> 0 <= k < 2 -> is_kth Rltb k l v -> v = 0%R).
  { intros l v k Hl Hk Hv. unfold is_kth, count in Hv. destruct Hl as [-> |[-> |[-> | ->]]]; cbn [List.filter] in Hv;
    destruct (Rltb_spec 0 v), (Rltb_spec v 0), (Rltb_spec 5 v), (Rltb_spec v 5); cbn in Hv; try lra; exfalso; lia. }
  assert (S : forall t, 0 <= t < 5 -> zn 0%R s t = zn 0%R [0; 0; 5; 0; 0]%R t).
  { intros t Ht'. destruct (Ht t Ht') as (m & (u & v & Hu & Hv & Hm) & ->).
    assert (C : t = 0 \/ t = 1 \/ t = 2 \/ t = 3 \/ t = 4) by lia.
    assert (A : around 5 1 1 (zn 0%R [0; 0; 5; 0; 0]%R) t = [0; 0]%R \/ around 5 1 1 (zn 0%R [0; 0; 5; 0; 0]%R) t = [0; 0; 5]%R \/
                around 5 1 1 (zn 0%R [0; 0; 5; 0; 0]%R) t = [0; 5; 0]%R \/ around 5 1 1 (zn 0%R [0; 0; 5; 0; 0]%R) t = [5; 0; 0]%R).
    { destruct C as [-> |[-> |[-> |[-> | ->]]]]; vm_compute; auto. }
    assert (U : u = 0%R) by (eapply K; [exact A| |exact Hu]; destruct A as [-> |[-> |[-> | ->]]]; cbn; lia).
    assert (V : v = 0%R) by (eapply K; [exact A| |exact Hv]; destruct A as [-> |[-> |[-> | ->]]]; cbn; lia).
    rewrite Hm, U, V. lra. }
  assert (O : is_onset 5 0 0 (zn 0%R s) 2).
  { unfold is_onset, is_peak, parabola_bend, parabola_height.
    change (2 - 2) with 0. change (2 - 1) with 1. change (2 + 1) with 3. change (2 + 2) with 4.
    rewrite !S by lia. cbv [zn nth Z.ltb Z.compare Z.to_nat Pos.to_nat Pos.iter_op Nat.add Pos.compare Pos.compare_cont]. repeat split; try lia; try lra. }
  assert (F : found = [2]).
  { assert (A : forall i, In i found -> i = 2) by (intros i Hi; apply Hin in Hi; destruct Hi as (P & _); destruct P as (P & _); lia).
    apply Hin in O. destruct found as [|x l]; [destruct O|]. rewrite (A x) in * by (left; reflexivity).
    destruct l as [|w l]; [reflexivity|]. exfalso. destruct Hinc as (Hf & _). inversion Hf; subst. rewrite (A w) in * by (right; left; reflexivity). lia. }
  rewrite F. reflexivity.
Qed.

(** *** C59: loudness does not matter *)
Theorem C59_scale_free :
  forall n pre post alpha delta qa qc a b o scratch c src len onsets,
    accepted a b -> fir_or_order1 a b -> 0 <= pre -> 0 <= post -> pre + post < n -> 1 <= alpha ->
    pp_run n pre post alpha delta qa qc a b o -> call_ok n scratch src (pp_work o) -> 4 <= len <= n -> (0 < c)%R ->
    exists o' s onsets', zlen s = len /\
      pp_process o scratch src len onsets = OK (o', s ++ skipn (Z.to_nat len) src, onsets') /\
      pp_process o scratch (map (Rmult c) src) len onsets = OK (o', s ++ skipn (Z.to_nat len) (map (Rmult c) src), onsets').
Proof. exact pp_scale. Qed.
Print Assumptions C59_scale_free.

Theorem C59_smoothing_scale_free :
  forall o scratch c src dst, (0 < c)%R -> 1 <= df_alpha o -> 1 <= df_length o ->
    dfp_process o scratch (map (Rmult c) src) dst = dfp_process o scratch src dst.
Proof. exact dfp_scale. Qed.
Print Assumptions C59_smoothing_scale_free.

(** A hundred times louder, the same onset. *)
Example C59_example :
  exists o o' src', pp_new 5 [] [1%R] 1 1 1 0 0 0 (fun _ => 0%R) = OK o /\
      pp_process o (repeat 0%R 5) (map (Rmult 100) [0; 0; 1; 0; 0]%R) 5 [] = OK (o', src', [2]).
Proof.
  destruct C35_example as (o & o' & src' & E1 & E2).
  destruct (C59_scale_free 5 1 1 1 0 0 0 [] [1%R] o (repeat 0%R 5) 100 [0; 0; 1; 0; 0]%R 5 []) as (o2 & s & on & Ls & A & B); try lia; try lra.
  { left. split; [reflexivity|discriminate]. }
  { left. reflexivity. }
  { eapply pp_made. exact E1. }
  { unfold call_ok. splits; [reflexivity|cbn; lia| |exists 2; split; [lia|exact R1_neq_R0]].
    destruct (pp_new_ready 5 1 1 1 0 0 0 [] [1%R]) with (junk := fun _ : Z => 0%R) as (o3 & E3 & (_ & _ & _ & W & _)); try lia;
      [left; split; [reflexivity|discriminate]|]. rewrite E1 in E3. injection E3 as <-. lia. }
  rewrite E2 in A. injection A as _ _ <-. exists o, o2. eexists. split; [exact E1|exact B].
Qed.

(** *** C60: norms *)
Theorem C60_alpha_norm :
  forall d n alpha, 1 <= alpha -> 1 <= n <= zlen d -> exists N, getAlphaNorm d n alpha = OK N /\ is_power_mean n alpha (zn 0%R d) N.
Proof. exact alpha_norm_ok. Qed.
Print Assumptions C60_alpha_norm.

Theorem C60_lp_norm :
  forall d p, 1 <= p -> exists N, getLpNorm d p = OK N /\ is_lp_norm (zlen d) p (zn 0%R d) N.
Proof. exact lp_norm_ok. Qed.
Print Assumptions C60_lp_norm.

(** Both are determined by these equations. *)
Theorem C60_unique :
  forall n p f N M, 1 <= p -> 1 <= n ->
    (is_power_mean n p f N -> is_power_mean n p f M -> N = M) /\ (is_lp_norm n p f N -> is_lp_norm n p f M -> N = M).
Proof. intros n p f N M Hp Hn. split; [exact (mean_unique n p f N M Hp Hn)|exact (norm_unique n p f N M Hp)]. Qed.
Print Assumptions C60_unique.

(** The normalised vector has norm exactly 1; it is proportional to the original unless that was below the
    threshold, when it is constant. *)
Theorem C60_normalise :
  forall d p threshold, 1 <= p -> 1 <= zlen d -> (0 < threshold)%R ->
    exists N out, is_lp_norm (zlen d) p (zn 0%R d) N /\ normaliseLp d p threshold = OK out /\ zlen out = zlen d /\
      is_lp_norm (zlen d) p (zn 0%R out) 1 /\
      ((threshold <= N)%R -> forall i, 0 <= i < zlen d -> zn 0%R d i = (N * zn 0 out i)%R) /\
      ((N < threshold)%R -> exists v, (0 < v)%R /\ forall i, 0 <= i < zlen d -> zn 0%R out i = v).
Proof. exact normalise_lp_ok. Qed.
Print Assumptions C60_normalise.

Theorem C60_normalise_nothing :
  forall d p threshold, zlen d = 0 \/ p = 0 -> normaliseLp d p threshold = OK d.
Proof. exact normalise_lp_none. Qed.
Print Assumptions C60_normalise_nothing.

(** 3, -4 has 2-norm 5. *)
Example C60_example : getLpNorm [3; -4]%R 2 = OK 5%R.
Proof.
  destruct (C60_lp_norm [3; -4]%R 2) as (N & E & H); [lia|]. rewrite E. f_equal.
  apply (norm_unique (zlen [3; -4]%R) 2 (zn 0%R [3; -4]%R)); [lia|exact H|]. split; [lra|].
  change (zlen [3; -4]%R) with 2. cbv -[Rplus Rmult Rminus IZR Rabs]. rewrite Rabs_pos_eq, Rabs_left by lra. ring.
Qed.
