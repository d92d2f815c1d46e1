(** The change detection function: what it computes, and how it behaves under transposition, gain and
    reversal in time. *)
From Coq Require Import List ZArith Reals Lia Lra Bool.
From Verif.Base Require Import Imp Sums RealOps Loops Tables.
From Verif.Onset Require Import DetProofs.
From Verif.Tonal Require Import TonalModel TonalSpec TonalProofs.
Import ListNotations.
Open Scope Z_scope.

Lemma spread_pos w : 0 <= w -> (0 < spread w)%R.
Proof. intros H. unfold spread. assert (0 < IZR (2 * w + 1))%R by (apply IZR_lt; lia). apply Rdiv_lt_0_compat; lra. Qed.
Lemma bell_pos w d : 0 <= w -> (0 < bell w d)%R.
Proof.
  intros H. unfold bell. pose proof (spread_pos w H). pose proof PI_RGT_0.
  apply Rdiv_lt_0_compat; [apply exp_pos|]. apply Rmult_lt_0_compat; auto. apply sqrt_lt_R0. lra.
Qed.
Lemma bell_sym w d : bell w (- d) = bell w d.
Proof. unfold bell. rewrite opp_IZR. do 3 f_equal. ring. Qed.

Lemma cdf_new_ok w : 0 <= w -> cdf_new w = OK {| f_width := 2 * w + 1; f_gauss := ztab (2 * w + 1) (fun e => bell w (e - w)) |}.
Proof.
  intros H. unfold cdf_new. replace (w * 2 + 1) with (2 * w + 1) by lia.
  destruct (Z.ltb_spec (2 * w + 1) 0); [lia|].
  replace (Z.quot (2 * w + 1 - 1) 2) with w by (replace (2 * w + 1 - 1) with (w * 2) by lia; now rewrite Z.quot_mul).
  set (n := 2 * w + 1). rewrite repeat_tab by lia.
  pose (S := fun x => ztab n (fun k => if k <? x + w then bell w (k - w) else 0%R)).
  replace (ztab n (fun _ => 0%R)) with (S (- w)) by (apply ztab_ext; intros; zcase; auto).
  rewrite (for_up_path S (- w) (w + 1)); [|lia|].
  - cbn [bind]. do 2 f_equal. apply ztab_ext. intros; zcase; auto.
  - intros y Hy. unfold S. tabs. f_equal. same_tab. replace (y + w - w) with y by lia.
    unfold bell. fold n. pose proof (spread_pos w H) as P. unfold spread in P. pose proof PI_RGT_0.
    assert (0 < sqrt (2 * PI))%R by (apply sqrt_lt_R0; lra).
    replace (IZR n / (2 * 2.3548))%R with (spread w) by (unfold spread, n; lra).
    fold n in P. fold (spread w). replace (IZR (- (y * y))) with (- (IZR y * IZR y))%R by (rewrite opp_IZR, mult_IZR; ring).
    replace (2 * spread w * spread w)%R with (2 * (spread w * spread w))%R by ring.
    replace 1.0%R with 1%R by lra. set (ex := exp _). field. split; [lra|]. apply Rgt_not_eq, (spread_pos w H).
Qed.

Lemma vec_zn (g : gram) i : zn [] (map snd (g_list g)) i = if (0 <=? i) && (i <? zlen (g_list g)) then zn [] (map snd (g_list g)) i else [].
Proof. destruct (Z.leb_spec 0 i), (Z.ltb_spec i (zlen (g_list g))); cbn [andb]; auto; apply zn_out; rewrite zlen_map; lia. Qed.

Definition frames_ok (g : gram) : Prop := Forall (fun p => zlen (snd p) = 6) (g_list g).
Definition duration_ok (g : gram) (junk : R) : Prop :=
  forall p, 0 <= p < zlen (g_list g) -> (Rabs (IZR p * junk) < IZR (2 ^ 63))%R.

Lemma get_vec_in g i : 0 <= i < zlen (g_list g) -> get_vec g i = OK (zn [] (map snd (g_list g)) i).
Proof.
  intros H. unfold get_vec. destruct (Z.ltb_spec i 0); [lia|]. destruct (Z.leb_spec (zlen (g_list g)) i); [lia|].
  rewrite (aget_OK (0, [])) by lia. cbn [bind]. f_equal. symmetry. now apply (zn_map snd (0, []) []).
Qed.
Lemma frame_len g i : frames_ok g -> 0 <= i < zlen (g_list g) -> zlen (zn [] (map snd (g_list g)) i) = 6.
Proof.
  intros F H. rewrite (zn_map snd (0, []) []) by auto. unfold frames_ok in F. rewrite Forall_forall in F. apply F.
  unfold zn, zlen in *. destruct (Z.ltb_spec i 0); [lia|]. apply nth_In. lia.
Qed.

Lemma smooth_ok w g pos : 0 <= w -> frames_ok g -> 0 <= pos < zlen (g_list g) ->
  smooth_frame {| f_width := 2 * w + 1; f_gauss := ztab (2 * w + 1) (fun e => bell w (e - w)) |} g pos
  = OK (ztab 6 (smoothed w (map snd (g_list g)) pos)).
Proof.
  intros Hw F Hp. unfold smooth_frame. cbn [f_width f_gauss]. set (n := zlen (g_list g)) in *.
  replace (Z.quot (2 * w + 1 - 1) 2) with w by (replace (2 * w + 1 - 1) with (w * 2) by lia; now rewrite Z.quot_mul).
  set (vs := map snd (g_list g)). assert (Lv : zlen vs = n) by (unfold vs; now rewrite zlen_map).
  set (lower := if pos - w <? 0 then 0 else pos - w). set (skip := lower - (pos - w)).
  set (upper := if n <=? pos + w then n - 1 else pos + w).
  replace (if pos - w <? 0 then (- (pos - w), 0) else (0, pos - w)) with (skip, lower)
    by (unfold skip, lower; destruct (pos - w <? 0); f_equal; lia).
  assert (B1 : 0 <= lower <= pos /\ 0 <= skip) by (unfold skip, lower; destruct (Z.ltb_spec (pos - w) 0); lia).
  assert (B2 : pos <= upper < n /\ upper <= pos + w) by (unfold upper; destruct (Z.leb_spec n (pos + w)); lia).
  assert (B3 : skip + (upper + 1 - lower) <= 2 * w + 1) by (unfold skip; lia).
  rewrite tcs_new_tab.
  set (t := fun i e => (bell w (e - w) * zn 0 (zn [] vs (pos + (e - w))) i)%R).
  assert (In : forall pc, 0 <= pc < 6 ->
    for_up lower (upper + 1) (fun i '(j, s) =>
       v <- get_vec g i ;;
       w0 <- aget (ztab (2 * w + 1) (fun e => bell w (e - w))) (skip + j) ;;
       x <- aget v pc ;; OK (j + 1, (s + w0 * x)%R)) (0, 0%R)
    = OK (upper + 1 - lower, rsum (upper + 1 - lower) (fun e => t pc (skip + e)))).
  { intros pc Hpc. pose (S := fun i => (i - lower, rsum (i - lower) (fun e => t pc (skip + e)))).
    replace (0, 0%R) with (S lower) by (unfold S; rewrite Z.sub_diag, rsum_0 by lia; reflexivity).
    apply (for_up_path S lower (upper + 1)); [lia|]. intros i Hi. unfold S.
    rewrite get_vec_in by (fold n; lia). cbn [bind]. fold vs. tabs.
    rewrite (aget_OK 0%R) by (unfold vs; rewrite frame_len; auto; fold n; lia). cbn [bind].
    replace (i + 1 - lower) with (i - lower + 1) by lia. rewrite rsum_S by lia. do 3 f_equal.
    unfold t. do 3 f_equal. unfold skip. lia. }
  set (sm := fun pc => rsum (2 * w + 1) (t pc)).
  assert (Out : forall pc, rsum (upper + 1 - lower) (fun e => t pc (skip + e)) = sm pc).
  { intros pc. unfold sm. set (m := upper + 1 - lower) in *.
    replace (2 * w + 1) with (skip + (m + (2 * w + 1 - skip - m))) by lia.
    rewrite rsum_split by lia. rewrite (rsum_split m) by lia.
    rewrite (rsum_zero skip), (rsum_zero (2 * w + 1 - skip - m)); [ring| |].
    - intros e He. unfold t. rewrite (zn_out [] vs), zn_nil; [ring|]. rewrite Lv. right. unfold m, skip, upper in *.
      destruct (Z.leb_spec n (pos + w)); lia.
    - intros e He. unfold t. rewrite (zn_out [] vs), zn_nil; [ring|]. left. unfold skip, lower in *.
      destruct (Z.ltb_spec (pos - w) 0); lia. }
  replace (ztab 6 (smoothed w vs pos)) with (ztab 6 sm).
  2:{ apply ztab_ext. intros i Hi. unfold smoothed. rewrite Lv.
      destruct (Z.leb_spec 0 pos); [|lia]. destruct (Z.ltb_spec pos n); [|lia]. reflexivity. }
  pose (S := fun i => ztab 6 (fun k => if k <? i then sm k else 0%R)).
  replace (ztab 6 sm) with (S 6) by (apply ztab_ext; intros; zcase; auto).
  replace (ztab 6 (fun _ => 0%R)) with (S 0) by (apply ztab_ext; intros; zcase; auto).
  apply (for_up_path S 0 6); [lia|]. intros i Hi. rewrite In by lia. ret. unfold S. tabs. rewrite Out. f_equal. same_tab.
Qed.

Lemma to_long_ok x : (Rabs x < IZR (2 ^ 63))%R -> exists z, to_long x = OK z.
Proof.
  intros H. unfold to_long. set (z := if Rltb x 0 then _ else _).
  assert (B : - 2 ^ 63 < z < 2 ^ 63).
  { assert (x <= Rabs x)%R by apply Rle_abs. assert (- x <= Rabs x)%R by (rewrite <- Rabs_Ropp; apply Rle_abs).
    unfold z. destruct (Rltb_spec x 0).
    - pose proof (Zfloor_bounds (- x)) as [Z1 Z2]. split.
      + assert (Zfloor (- x) < 2 ^ 63) by (apply lt_IZR; lra). lia.
      + assert (-1 < Zfloor (- x)) by (apply lt_IZR; lra). lia.
    - pose proof (Zfloor_bounds x) as [Z1 Z2]. split.
      + assert (-1 < Zfloor x) by (apply lt_IZR; lra). lia.
      + apply lt_IZR; lra. }
  destruct (Z.leb_spec (- 2 ^ 63) z); [|lia]. destruct (Z.ltb_spec z (2 ^ 63)); [|lia]. cbn [andb]. eauto.
Qed.

Lemma ztab_add {A} n (f : Z -> A) : 0 <= n -> ztab n f ++ [f n] = ztab (n + 1) f.
Proof. intros. symmetry. now apply ztab_snoc. Qed.

Theorem change_values w g junk : 0 <= w -> frames_ok g -> duration_ok g junk ->
  exists o, cdf_new w = OK o /\
    change_process o g junk = OK (ztab (zlen (g_list g)) (change w (map snd (g_list g)))).
Proof.
  intros Hw F D. eexists. split; [now apply cdf_new_ok|]. set (o := {| f_width := _ |}).
  unfold change_process. set (n := zlen (g_list g)). set (vs := map snd (g_list g)).
  assert (Hn : 0 <= n) by apply zlen_nonneg.
  assert (Lv : zlen vs = n) by (unfold vs; now rewrite zlen_map).
  pose (time := fun p => match to_long (IZR p * junk) with OK z => z | _ => 0 end).
  assert (T : forall p, 0 <= p < n -> to_long (IZR p * junk) = OK (time p)).
  { intros p Hp. unfold time. destruct (to_long_ok (IZR p * junk)) as [z ->]; auto. }
  pose (S := fun p => {| g_list := ztab p (fun q => (time q, ztab 6 (smoothed w vs q))); g_dur := junk |}).
  change (gram_new junk) with (S 0). rewrite (for_up_path S 0 n); [|lia|].
  2:{ intros p Hp. unfold o. rewrite smooth_ok by auto. cbn [bind]. unfold add_vec, S. cbn [g_list g_dur]. zl.
      rewrite Z.max_r, T by lia. cbn [bind]. do 2 f_equal. rewrite <- ztab_add by lia. reflexivity. }
  cbn [bind].
  assert (G : forall q, get_vec (S n) q = OK (ztab 6 (smoothed w vs q))).
  { intros q. unfold get_vec, S. cbn [g_list]. zl. rewrite Z.max_r by lia.
    assert (Z0 : q < 0 \/ n <= q -> tcs_new = ztab 6 (smoothed w vs q)).
    { intros H. rewrite tcs_new_tab. apply ztab_ext. intros i Hi. unfold smoothed. rewrite Lv. zcase; auto; lia. }
    destruct (Z.ltb_spec q 0); [rewrite Z0; auto; lia|]. destruct (Z.leb_spec n q); [rewrite Z0; auto; lia|].
    now rewrite aget_tab by lia. }
  rewrite repeat_tab by lia.
  pose (C := fun i => ztab n (fun k => if k <? i then change w vs k else 0%R)).
  replace (ztab n (change w vs)) with (C n) by (apply ztab_ext; intros; zcase; auto).
  replace (ztab n (fun _ => 0%R)) with (C 0) by (apply ztab_ext; intros; zcase; auto).
  apply (for_up_path C 0 n); [lia|]. intros p Hp. rewrite !G. cbn [bind].
  rewrite (for_up_path (fun i => rsum i (fun k => (smoothed w vs (p + 1) k - smoothed w vs (p - 1) k) * (smoothed w vs (p + 1) k - smoothed w vs (p - 1) k))%R) 0 6); [|lia|].
  - ret. unfold C. tabs. f_equal. same_tab.
  - intros i Hi. tabs. rewrite rsum_S by lia. f_equal. ring.
Qed.

(** *** Transposition *)
Lemma smoothed_turned w vs vs' a p r : zlen vs' = zlen vs -> 0 <= r < 3 ->
  (forall i, 0 <= i < zlen vs -> point (zn [] vs' i) r = turned a (point (zn [] vs i) r)) ->
  (smoothed w vs' p (2 * r) = smoothed w vs p (2 * r) * cos a + smoothed w vs p (2 * r + 1) * sin a)%R /\
  (smoothed w vs' p (2 * r + 1) = smoothed w vs p (2 * r + 1) * cos a - smoothed w vs p (2 * r) * sin a)%R.
Proof.
  intros L Hr P. unfold smoothed. rewrite L. destruct ((0 <=? p) && (p <? zlen vs)); [|split; ring].
  rewrite !(Rmult_comm (rsum _ _)), <- !rsum_scal, <- rsum_plus, <- rsum_minus.
  assert (Q : forall q, (zn 0 (zn [] vs' q) (2 * r) = zn 0 (zn [] vs q) (2 * r) * cos a + zn 0 (zn [] vs q) (2 * r + 1) * sin a)%R /\
    (zn 0 (zn [] vs' q) (2 * r + 1) = zn 0 (zn [] vs q) (2 * r + 1) * cos a - zn 0 (zn [] vs q) (2 * r) * sin a)%R).
  { intros q. destruct (Z.lt_ge_cases q 0); [rewrite !(zn_out []), !zn_nil by lia; split; ring|].
    destruct (Z.le_gt_cases (zlen vs) q); [rewrite !(zn_out []), !zn_nil by lia; split; ring|].
    specialize (P q ltac:(lia)). unfold point, turned in P. injection P as P1 P2. cbn [fst snd] in *. auto. }
  split; apply rsum_ext; intros e He; destruct (Q (p + (e - w))) as [Q1 Q2]; rewrite ?Q1, ?Q2; ring.
Qed.

Lemma change_turned w vs vs' a : zlen vs' = zlen vs ->
  (forall i r, 0 <= i < zlen vs -> 0 <= r < 3 -> point (zn [] vs' i) r = turned (a r) (point (zn [] vs i) r)) ->
  forall p, change w vs' p = change w vs p.
Proof.
  intros L P p. unfold change. f_equal. set (d := fun u i => (smoothed w u (p + 1) i - smoothed w u (p - 1) i)%R).
  change (rsum 6 (fun i => d vs' i * d vs' i)%R = rsum 6 (fun i => d vs i * d vs i)%R).
  assert (Q : forall u, rsum 6 (fun i => d u i * d u i)%R = rsum 3 (fun r => d u (2 * r)%Z * d u (2 * r)%Z + d u (2 * r + 1)%Z * d u (2 * r + 1)%Z)%R).
  { intros u. rewrite rsum3, rsum6. simpl Z.mul. simpl Z.add. ring. }
  rewrite !Q. apply rsum_ext. intros r Hr.
  destruct (smoothed_turned w vs vs' (a r) (p + 1) r) as [A1 A2]; auto.
  destruct (smoothed_turned w vs vs' (a r) (p - 1) r) as [B1 B2]; auto.
  unfold d. rewrite A1, A2, B1, B2. pose proof (sin2_cos2 (a r)) as SC. unfold Rsqr in SC.
  set (x1 := smoothed w vs (p + 1) (2 * r)). set (y1 := smoothed w vs (p + 1) (2 * r + 1)).
  set (x0 := smoothed w vs (p - 1) (2 * r)). set (y0 := smoothed w vs (p - 1) (2 * r + 1)).
  set (s := sin (a r)) in *. set (c := cos (a r)) in *.
  transitivity ((s * s + c * c) * ((x1 - x0) * (x1 - x0) + (y1 - y0) * (y1 - y0)))%R; [ring|rewrite SC; ring].
Qed.

Lemma Forall2_zn {A B} (P : A -> B -> Prop) da db la lb : Forall2 P la lb ->
  zlen la = zlen lb /\ forall i, 0 <= i < zlen la -> P (zn da la i) (zn db lb i).
Proof.
  induction 1 as [|a b la lb H _ [L IH]]; [split; auto; intros i Hi; unfold zlen in Hi; cbn in Hi; lia|].
  rewrite !zlen_cons, L. split; auto. intros i Hi. rewrite !zn_cons. zcase; auto; try lia. apply IH. lia.
Qed.

Theorem change_transposed b k cs g g' w junk junk' : tonal_new = OK b -> Forall (fun c => zlen c = 12) cs ->
  Forall2 (fun c p => transform2TCS b c = OK (snd p)) cs (g_list g) ->
  Forall2 (fun c p => transform2TCS b (transposed k c) = OK (snd p)) cs (g_list g') ->
  0 <= w -> duration_ok g junk -> duration_ok g' junk' ->
  exists o vs, cdf_new w = OK o /\ change_process o g junk = OK vs /\ change_process o g' junk' = OK vs.
Proof.
  intros B L F F' Hw D D'.
  destruct (Forall2_zn _ [] (0, []) _ _ F) as [N V]. destruct (Forall2_zn _ [] (0, []) _ _ F') as [N' V'].
  assert (C12 : forall i, 0 <= i < zlen cs -> zlen (zn [] cs i) = 12).
  { intros i Hi. rewrite Forall_forall in L. apply L. unfold zn, zlen in *. destruct (Z.ltb_spec i 0); [lia|]. apply nth_In. lia. }
  assert (Ok : forall (h : gram) (t : list R -> list R), (forall c, zlen c = 12 -> zlen (t c) = 12) ->
    Forall2 (fun c p => transform2TCS b (t c) = OK (snd p)) cs (g_list h) -> frames_ok h).
  { intros h t T FF. unfold frames_ok. clear - L FF T B. revert L. induction FF as [|c p l l' E _ IH]; intros L; constructor.
    - inversion L as [|x y Lc]; subst. destruct (tcs_values (t c) (T _ Lc)) as (b' & v & B' & E' & Lv & _).
      rewrite B in B'. injection B' as <-. rewrite E in E'. injection E' as ->. auto.
    - apply IH. now inversion L. }
  destruct (change_values w g junk) as (o & O & P); auto. { apply (Ok g (fun c => c)); auto. }
  destruct (change_values w g' junk') as (o' & O' & P'); auto. { apply (Ok g' (transposed k)); auto. }
  rewrite O in O'. injection O' as <-. exists o. eexists. split; [auto|]. split; [apply P|]. rewrite P'.
  rewrite <- N, <- N'. f_equal. apply ztab_ext. intros p Hp. apply (change_turned w _ _ (fun r => IZR k * semitone r)%R).
  - rewrite !zlen_map. lia.
  - intros i r Hi Hr. rewrite zlen_map in Hi. rewrite !(zn_map snd (0, []) []) by lia.
    destruct (transposed_tcs k (zn [] cs i) b) as (v & v' & E & E' & Q & _); auto; [apply C12; lia|].
    rewrite V in E by lia. rewrite V' in E' by lia. injection E as <-. injection E' as <-. auto.
Qed.

(** *** Reversal, gain, locality *)
Lemma zn_rev_any {A} (d : A) l i : zn d (rev l) i = zn d l (zlen l - 1 - i).
Proof.
  destruct (Z.lt_ge_cases i 0); [rewrite !zn_out; auto; rewrite ?zlen_rev; lia|].
  destruct (Z.le_gt_cases (zlen l) i); [rewrite !zn_out; auto; rewrite ?zlen_rev; lia|]. apply zn_rev. lia.
Qed.

Lemma smoothed_rev w vs p i : smoothed w (rev vs) p i = smoothed w vs (zlen vs - 1 - p) i.
Proof.
  unfold smoothed. rewrite zlen_rev.
  replace ((0 <=? zlen vs - 1 - p) && (zlen vs - 1 - p <? zlen vs)) with ((0 <=? p) && (p <? zlen vs)) by (zcase; auto; lia).
  destruct ((0 <=? p) && (p <? zlen vs)); auto.
  rewrite <- (rsum_rev (2 * w + 1)). apply rsum_ext. intros e He. rewrite zn_rev_any.
  rewrite <- bell_sym. f_equal; f_equal; try f_equal; lia.
Qed.

Theorem change_rev w vs p : change w (rev vs) p = change w vs (zlen vs - 1 - p).
Proof.
  unfold change. f_equal. apply rsum_ext. intros i Hi. rewrite !smoothed_rev.
  replace (zlen vs - 1 - (p + 1)) with (zlen vs - 1 - p - 1) by lia.
  replace (zlen vs - 1 - (p - 1)) with (zlen vs - 1 - p + 1) by lia. ring.
Qed.

Lemma zn_gain c v i : (zn 0 (map (Rmult c) v) i = c * zn 0 v i)%R.
Proof.
  destruct (Z.lt_ge_cases i 0); [rewrite !zn_out; try ring; rewrite ?zlen_map; lia|].
  destruct (Z.le_gt_cases (zlen v) i); [rewrite !zn_out; try ring; rewrite ?zlen_map; lia|].
  rewrite (zn_map (Rmult c) 0%R 0%R) by lia. reflexivity.
Qed.
Lemma smoothed_gain c w vs p i : (smoothed w (map (map (Rmult c)) vs) p i = c * smoothed w vs p i)%R.
Proof.
  unfold smoothed. rewrite zlen_map. destruct (_ && _); [|ring]. rewrite <- rsum_scal. apply rsum_ext. intros e He.
  set (q := p + (e - w)).
  destruct (Z.lt_ge_cases q 0); [rewrite !(zn_out []), !zn_nil by (rewrite ?zlen_map; lia); ring|].
  destruct (Z.le_gt_cases (zlen vs) q); [rewrite !(zn_out []), !zn_nil by (rewrite ?zlen_map; lia); ring|].
  rewrite (zn_map (map (Rmult c)) [] []) by lia. rewrite zn_gain. ring.
Qed.

Theorem change_gain c w vs p : (change w (map (map (Rmult c)) vs) p = Rabs c * change w vs p)%R.
Proof.
  unfold change. rewrite <- sqrt_Rsqr_abs, <- sqrt_mult_alt by apply Rle_0_sqr. f_equal.
  rewrite <- rsum_scal. apply rsum_ext. intros i Hi. rewrite !smoothed_gain. unfold Rsqr. ring.
Qed.

Theorem change_local w vs vs' p : zlen vs' = zlen vs ->
  (forall q, p - w - 1 <= q <= p + w + 1 -> zn [] vs' q = zn [] vs q) -> change w vs' p = change w vs p.
Proof.
  intros L H. unfold change. f_equal.
  assert (S : forall s i, s = p + 1 \/ s = p - 1 -> smoothed w vs' s i = smoothed w vs s i).
  { intros s i Hs. unfold smoothed. rewrite L. destruct (_ && _); auto. apply rsum_ext. intros e He. rewrite H by lia. auto. }
  apply rsum_ext. intros i Hi. rewrite !S by auto. reflexivity.
Qed.

Theorem change_steady w vs p v : 0 <= w -> 0 <= p - w - 1 -> p + w + 1 < zlen vs ->
  (forall q, p - w - 1 <= q <= p + w + 1 -> zn [] vs q = v) -> change w vs p = 0%R.
Proof.
  intros Hw H0 H1 H. unfold change. rewrite rsum_zero; [apply sqrt_0|]. intros i Hi.
  assert (S : smoothed w vs (p + 1) i = smoothed w vs (p - 1) i).
  { unfold smoothed. destruct (Z.leb_spec 0 (p + 1)); [|lia]. destruct (Z.leb_spec 0 (p - 1)); [|lia].
    destruct (Z.ltb_spec (p + 1) (zlen vs)); [|lia]. destruct (Z.ltb_spec (p - 1) (zlen vs)); [|lia]. cbn [andb].
    apply rsum_ext. intros e He. rewrite !H by lia. reflexivity. }
  rewrite S. ring.
Qed.

Theorem change_nonneg w vs p : (0 <= change w vs p)%R.
Proof. apply sqrt_pos. Qed.

(** A piece that never changes is reported to change at its two ends. *)
Lemma smoothed_steady w n v p i : 0 <= w -> 0 <= p < n ->
  smoothed w (repeat v (Z.to_nat n)) p i
  = (zn 0 v i * rsum (2 * w + 1) (fun e => if (0 <=? p + (e - w))%Z && (p + (e - w) <? n)%Z then bell w (e - w) else 0))%R.
Proof.
  intros Hw Hp. unfold smoothed. rewrite zlen_repeat, Z2Nat.id by lia.
  destruct (Z.leb_spec 0 p); [|lia]. destruct (Z.ltb_spec p n); [|lia]. cbn [andb].
  rewrite <- rsum_scal. apply rsum_ext. intros e He. set (q := p + (e - w)).
  destruct (Z.leb_spec 0 q), (Z.ltb_spec q n); cbn [andb];
    try (rewrite (zn_out [] (repeat _ _)), zn_nil by (rewrite zlen_repeat; lia); ring).
  rewrite zn_repeat_in by lia. ring.
Qed.
Lemma steady_weight w n p : 0 <= w -> 0 <= p < n ->
  (0 < rsum (2 * w + 1) (fun e => if (0 <=? p + (e - w))%Z && (p + (e - w) <? n)%Z then bell w (e - w) else 0))%R.
Proof.
  intros Hw Hp. eapply Rlt_le_trans; [|apply (rsum_term _ _ w)]; try lia.
  - cbn beta. replace (p + (w - w)) with p by lia. destruct (Z.leb_spec 0 p); [|lia]. destruct (Z.ltb_spec p n); [|lia].
    apply bell_pos; auto.
  - intros e He. destruct (_ && _); [apply Rlt_le, bell_pos; auto|lra].
Qed.

Theorem change_ends w n v : 0 <= w -> 2 <= n -> (0 < norm2 v)%R ->
  (0 < change w (repeat v (Z.to_nat n)) 0)%R /\ (0 < change w (repeat v (Z.to_nat n)) (n - 1))%R.
Proof.
  intros Hw Hn Hv.
  assert (S2 : (0 < rsum 6 (fun i => zn 0 v i * zn 0 v i))%R).
  { unfold norm2 in Hv. apply Rnot_le_lt. intros H. rewrite sqrt_neg_0 in Hv by auto. lra. }
  assert (O : forall i p, p < 0 \/ n <= p -> smoothed w (repeat v (Z.to_nat n)) p i = 0%R).
  { intros i p H. unfold smoothed. rewrite zlen_repeat, Z2Nat.id by lia. zcase; auto; lia. }
  assert (P : forall c, (0 < c)%R -> (0 < sqrt (rsum 6 (fun i => (zn 0 v i * c) * (zn 0 v i * c))))%R).
  { intros c Hc. apply sqrt_lt_R0. rewrite (rsum_ext 6 _ (fun i => (c * c) * (zn 0 v i * zn 0 v i))%R) by (intros; ring).
    rewrite rsum_scal. apply Rmult_lt_0_compat; auto. nra. }
  split; unfold change.
  - rewrite (rsum_ext 6 _ (fun i => (zn 0 v i * rsum (2 * w + 1) (fun e => if (0 <=? 0 + 1 + (e - w))%Z && (0 + 1 + (e - w) <? n)%Z then bell w (e - w) else 0)) *
      (zn 0 v i * rsum (2 * w + 1) (fun e => if (0 <=? 0 + 1 + (e - w))%Z && (0 + 1 + (e - w) <? n)%Z then bell w (e - w) else 0)))%R).
    2:{ intros i Hi. rewrite smoothed_steady by lia. rewrite (O i (0 - 1)) by lia. ring. }
    apply P, steady_weight; lia.
  - rewrite (rsum_ext 6 _ (fun i => (zn 0 v i * rsum (2 * w + 1) (fun e => if (0 <=? n - 1 - 1 + (e - w))%Z && (n - 1 - 1 + (e - w) <? n)%Z then bell w (e - w) else 0)) *
      (zn 0 v i * rsum (2 * w + 1) (fun e => if (0 <=? n - 1 - 1 + (e - w))%Z && (n - 1 - 1 + (e - w) <? n)%Z then bell w (e - w) else 0)))%R).
    2:{ intros i Hi. rewrite (smoothed_steady w n v (n - 1 - 1)) by lia. rewrite (O i (n - 1 + 1)) by lia. ring. }
    apply P, steady_weight; lia.
Qed.

(** Without smoothing the frames are not left alone but amplified. *)
Theorem unsmoothed_gain vs p i : 0 <= p < zlen vs ->
  (smoothed 0 vs p i = bell 0 0 * zn 0 (zn [] vs p) i)%R /\ (1.6 < bell 0 0)%R.
Proof.
  intros H. split.
  - unfold smoothed. destruct (Z.leb_spec 0 p); [|lia]. destruct (Z.ltb_spec p (zlen vs)); [|lia]. cbn [andb].
    change (2 * 0 + 1) with (0 + 1). rewrite rsum_S, rsum_0 by lia. replace (p + (0 - 0)) with p by lia. simpl Z.sub. ring.
  - unfold bell, spread. simpl IZR. replace (- (0 * 0) / _)%R with 0%R by (unfold Rdiv; ring). rewrite exp_0.
    pose proof PI_RGT_0. pose proof PI_4.
    assert (Q : (0 < sqrt (2 * PI) <= 2.9)%R).
    { split; [apply sqrt_lt_R0; lra|]. rewrite <- (sqrt_square 2.9) by lra. apply sqrt_le_1_alt. lra. }
    apply (Rmult_lt_reg_r (1 / 4.7096 * sqrt (2 * PI))); [apply Rmult_lt_0_compat; lra|].
    unfold Rdiv. rewrite (Rmult_1_l (/ (_ * _))), Rinv_l; [lra|]. apply Rmult_integral_contrapositive_currified; lra.
Qed.

(** *** The uninitialised frame duration *)
Theorem duration_undefined : exists w o g junk, 0 <= w /\ frames_ok g /\ cdf_new w = OK o /\ change_process o g junk = UB.
Proof.
  exists 0. eexists. exists {| g_list := [(0, tcs_new); (0, tcs_new)]; g_dur := 0%R |}, (IZR (2 ^ 63)).
  split; [lia|]. split; [repeat constructor|]. split; [now apply cdf_new_ok|]. set (o := {| f_width := _ |}).
  unfold change_process. cbn [g_list]. change (zlen [_; _]) with 2. set (g := {| g_list := _ |}).
  assert (F : frames_ok g) by (repeat constructor).
  match goal with |- bind ?l ?k = _ => assert (E : l = UB); [|rewrite E; reflexivity] end.
  unfold for_up. change (Z.to_nat (2 - 0)) with 2%nat. cbn [for_n]. unfold o.
  rewrite smooth_ok; [|lia|auto|unfold g; cbn [g_list]; change (zlen [_; _]) with 2; lia]. cbn [bind].
  unfold add_vec. unfold gram_new. cbn [g_list g_dur]. change (zlen []) with 0.
  replace (0 * IZR (2 ^ 63))%R with (IZR 0) by ring. assert (T0 : to_long (IZR 0) = OK 0).
  { unfold to_long. destruct (Rltb_spec (IZR 0) 0); [lra|]. now rewrite Zfloor_IZR. }
  rewrite T0. cbn [bind]. rewrite smooth_ok; [|lia|auto|unfold g; cbn [g_list]; change (zlen [_; _]) with 2; lia]. cbn [bind g_list g_dur].
  change (zlen ([] ++ [_])) with 1. replace (1 * IZR (2 ^ 63))%R with (IZR (2 ^ 63)) by ring.
  assert (T1 : to_long (IZR (2 ^ 63)) = UB).
  { unfold to_long. destruct (Rltb_spec (IZR (2 ^ 63)) 0) as [H|H]; [apply lt_IZR in H; lia|]. rewrite Zfloor_IZR. reflexivity. }
  rewrite T1. reflexivity.
Qed.

(** *** Times of the frames *)
Lemma to_long_floor x : (0 <= x)%R -> (x < IZR (2 ^ 63))%R -> to_long x = OK (Zfloor x).
Proof.
  intros H0 H1. unfold to_long. destruct (Rltb_spec x 0); [lra|]. pose proof (Zfloor_bounds x) as [Z1 Z2].
  assert (-1 < Zfloor x) by (apply lt_IZR; lra). assert (Zfloor x < 2 ^ 63) by (apply lt_IZR; lra).
  destruct (Z.leb_spec (- 2 ^ 63) (Zfloor x)); [|lia]. destruct (Z.ltb_spec (Zfloor x) (2 ^ 63)); [|lia]. reflexivity.
Qed.

Lemma add_all_ok d vs : (0 <= d)%R -> forall m, 0 <= m -> (IZR (m + zlen vs) * d < IZR (2 ^ 63))%R ->
  forall f, add_all {| g_list := ztab m (fun i => (Zfloor (IZR i * d), f i)); g_dur := d |} vs
  = OK {| g_list := ztab (m + zlen vs) (fun i => (Zfloor (IZR i * d), if i <? m then f i else zn [] vs (i - m))); g_dur := d |}.
Proof.
  intros Hd. induction vs as [|v vs IH]; intros m Hm B f.
  - cbn [add_all]. rewrite zlen_nil, Z.add_0_r in *. do 2 f_equal. apply ztab_ext. intros; zcase; auto; lia.
  - cbn [add_all]. rewrite zlen_cons in *. pose proof (zlen_nonneg vs). unfold add_vec. cbn [g_list g_dur]. zl. rewrite Z.max_r by lia.
    assert (0 <= IZR m)%R by (apply IZR_le; lia). assert (IZR m <= IZR (m + (zlen vs + 1)))%R by (apply IZR_le; lia).
    rewrite to_long_floor; [|nra|nra]. cbn [bind].
    set (f' := fun i => if i <? m then f i else v).
    replace (ztab m _ ++ [_]) with (ztab (m + 1) (fun i => (Zfloor (IZR i * d), f' i))).
    2:{ rewrite <- ztab_add by lia. unfold f' at 2. rewrite Z.ltb_irrefl. f_equal. apply ztab_ext. intros i Hi. unfold f'.
        destruct (Z.ltb_spec i m); auto; lia. }
    rewrite IH; [|lia|now replace (m + 1 + zlen vs) with (m + (zlen vs + 1)) by lia].
    replace (m + 1 + zlen vs) with (m + (zlen vs + 1)) by lia. do 2 f_equal. apply ztab_ext. intros i Hi. f_equal.
    unfold f'. rewrite zn_cons. zcase; auto; try lia. f_equal. lia.
Qed.

Theorem gram_times junk d vs : (0 <= d)%R -> (IZR (zlen vs) * d < IZR (2 ^ 63))%R ->
  exists g, add_all (set_duration (gram_new junk) d) vs = OK g /\ map snd (g_list g) = vs /\
    get_duration g = OK (Zfloor (IZR (zlen vs) * d)) /\
    (forall i, get_vec g i = OK (if (0 <=? i) && (i <? zlen vs) then zn [] vs i else repeat 0%R 6)) /\
    (forall i, 0 <= i < zlen vs -> get_time g i = OK (Zfloor (IZR i * d))) /\
    (forall i j a b, i <= j -> get_time g i = OK a -> get_time g j = OK b -> a <= b).
Proof.
  intros Hd B. pose proof (add_all_ok d vs Hd 0 ltac:(lia) B (fun _ => [])) as E.
  rewrite ztab_0 in E by lia. change (add_all (set_duration (gram_new junk) d) vs) with (add_all {| g_list := []; g_dur := d |} vs).
  rewrite E. rewrite Z.add_0_l. pose proof (zlen_nonneg vs) as N.
  replace (ztab (zlen vs) _) with (ztab (zlen vs) (fun i => (Zfloor (IZR i * d), zn [] vs i))).
  2:{ apply ztab_ext. intros; zcase; try lia; f_equal; f_equal; lia. }
  eexists. split; [reflexivity|]. set (g := {| g_list := _ |}).
  assert (Ls : zlen (g_list g) = zlen vs) by (unfold g; cbn [g_list]; zl; lia).
  assert (Ms : map snd (g_list g) = vs).
  { apply (zn_ext []); [now rewrite zlen_map|]. intros i Hi. rewrite zlen_map in Hi. rewrite (zn_map snd (0, []) []) by auto.
    unfold g. cbn [g_list]. rewrite zn_ztab by lia. reflexivity. }
  assert (Tm : forall i, 0 <= i < zlen vs -> get_time g i = OK (Zfloor (IZR i * d))).
  { intros i Hi. unfold get_time, g. cbn [g_list]. now rewrite aget_tab by lia. }
  splits; auto.
  - unfold get_duration. rewrite Ls. apply to_long_floor; auto. apply Rmult_le_pos; auto. apply IZR_le. lia.
  - intros i. destruct (Z.leb_spec 0 i), (Z.ltb_spec i (zlen vs)); cbn [andb]; try (rewrite get_vec_in, Ms; auto; lia);
      unfold get_vec; rewrite Ls; zcase; auto; lia.
  - intros i j a b Hij Ha Hb.
    assert (I : forall k z, get_time g k = OK z -> 0 <= k < zlen vs).
    { intros k z. unfold get_time. destruct (aget (g_list g) k) eqn:Ea; try discriminate.
      apply (aget_inv (0, [])) in Ea as [Ea _]. intros _. lia. }
    pose proof (I _ _ Ha). pose proof (I _ _ Hb). rewrite Tm in Ha, Hb by auto. injection Ha as <-. injection Hb as <-.
    apply Zfloor_le. apply Rmult_le_compat_r; auto. now apply IZR_le.
Qed.
