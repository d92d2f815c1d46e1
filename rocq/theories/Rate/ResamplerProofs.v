From Coq Require Import List ZArith Lia Bool Znumtheory.
From Verif.Base Require Import Imp Sums.
From Verif.Maths Require Import IntModel IntSpec IntProofs.
From Verif.Rate Require Import ResamplerModel ResamplerSpec.
Import ListNotations.
Open Scope Z_scope.

Lemma cdiv_ceil a b : 0 < b -> is_ceil a b (cdiv a b).
Proof.
  intros H. unfold is_ceil, cdiv. pose proof (Z_div_mod_eq_full (- a) b). pose proof (Z.mod_pos_bound (- a) b H). nia.
Qed.
Lemma ceil_unique a b c c' : 0 < b -> is_ceil a b c -> is_ceil a b c' -> c = c'.
Proof. unfold is_ceil. intros. nia. Qed.
Lemma ceil_le a b c k : 0 < b -> is_ceil a b c -> a <= k * b -> c <= k.
Proof. unfold is_ceil. intros. nia. Qed.

Lemma skipn_skipn {A} (n m : nat) (l : list A) : skipn n (skipn m l) = skipn (m + n) l.
Proof. revert l. induction m as [|m IH]; intros l; [reflexivity|]. destruct l; [now rewrite !skipn_nil|]. apply IH. Qed.

Section P.
  Context {T : Type} (zero : T) (add mul : T -> T -> T).
  Notation Zn := (zn zero).
  Variables (source target : Z) (filter : list T) (scale : T).
  Hypothesis Hs : 1 <= source <= INT_MAX.
  Hypothesis Ht : 1 <= target <= INT_MAX.
  Notation g := (Z.gcd source target).
  Notation a := (reduced_target source target).
  Notation b := (reduced_source source target).
  Notation flen := (zlen filter).
  Notation h := (flen / 2).
  Notation lat := (cdiv (flen - h) b).
  Hypothesis Ha : a <= flen.

  Lemma g_pos : 0 < g.
  Proof. pose proof (Z.gcd_nonneg source target). assert (g <> 0) by (intros E; apply Z.gcd_eq_0 in E; lia). lia. Qed.
  Lemma a_eq : target = a * g.
  Proof.
    unfold reduced_target. pose proof g_pos. destruct (Z.gcd_divide_r source target) as [q E].
    rewrite E at 1 2. rewrite Z.div_mul by lia. reflexivity.
  Qed.
  Lemma b_eq : source = b * g.
  Proof.
    unfold reduced_source. pose proof g_pos. destruct (Z.gcd_divide_l source target) as [q E].
    rewrite E at 1 2. rewrite Z.div_mul by lia. reflexivity.
  Qed.
  Lemma a_pos : 0 < a. Proof. pose proof a_eq. pose proof g_pos. nia. Qed.
  Lemma b_pos : 0 < b. Proof. pose proof b_eq. pose proof g_pos. nia. Qed.
  Lemma h_bounds : 0 <= h <= flen.
  Proof. pose proof (Z_div_mod_eq_full flen 2). pose proof (Z.mod_pos_bound flen 2). pose proof (zlen_nonneg filter). lia. Qed.
  Lemma lat_ceil : flen - h <= lat * b < flen - h + b.
  Proof. apply (cdiv_ceil _ _ b_pos). Qed.
  Lemma lat_nonneg : 0 <= lat.
  Proof. pose proof lat_ceil. pose proof b_pos. pose proof h_bounds. nia. Qed.

  (** Ceilings in terms of the reduced rates. *)
  Lemma ceil_rate n c : is_ceil (n * target) source c <-> is_ceil (n * a) b c.
  Proof.
    unfold is_ceil. pose proof g_pos as G. pose proof a_eq as EA. pose proof b_eq as EB.
    set (A := a) in *. set (B := b) in *. set (gg := g) in *. clearbody A B gg. rewrite EA, EB.
    replace (n * (A * gg)) with (n * A * gg) by ring. replace (c * (B * gg)) with (c * B * gg) by ring.
    replace (n * A * gg + B * gg) with ((n * A + B) * gg) by ring.
    rewrite <- Z.mul_le_mono_pos_r, <- Z.mul_lt_mono_pos_r by exact G. reflexivity.
  Qed.

  (** Closed forms of the phase table. *)
  Definition nphase (p : Z) : Z := (p - b) mod a.
  Definition drop_ (p : Z) : Z := cdiv (Z.max 0 (b - p)) a.
  Definition zip_ (p : Z) : Z := cdiv (flen - p) a.
  Definition phase_of (p : Z) : rphase T := mkPhase (nphase p) (ztab (zip_ p) (fun i => Zn filter (i * a + p))) (drop_ p).

  Lemma drop_step p : 0 <= p < a -> drop_ p * a - nphase p = b - p.
  Proof.
    intros Hp. pose proof a_pos. pose proof b_pos. unfold drop_, nphase.
    pose proof (cdiv_ceil (Z.max 0 (b - p)) a ltac:(lia)) as C. unfold is_ceil in C.
    destruct (Z.le_gt_cases b p).
    - rewrite Z.mod_small by lia. rewrite Z.max_l in * by lia.
      assert (cdiv 0 a = 0) by nia. nia.
    - rewrite Z.max_r in * by lia. set (d := cdiv (b - p) a) in *.
      replace ((p - b) mod a) with (d * a - (b - p)); [lia|].
      apply (Z.mod_unique _ _ (- d)); [lia|nia].
  Qed.
  Lemma nphase_bounds p : 0 <= nphase p < a.
  Proof. unfold nphase. apply Z.mod_pos_bound. apply a_pos. Qed.
  Lemma drop_nonneg p : 0 <= drop_ p.
  Proof. unfold drop_. pose proof a_pos. pose proof (cdiv_ceil (Z.max 0 (b - p)) a ltac:(lia)) as C. unfold is_ceil in C. nia. Qed.
  Lemma zip_bounds p : flen - p <= zip_ p * a < flen - p + a.
  Proof. apply (cdiv_ceil _ _ a_pos). Qed.
  Lemma zip_pos p : 0 <= p < a -> 1 <= zip_ p.
  Proof. intros. pose proof (zip_bounds p). pose proof a_pos. nia. Qed.
  Lemma phase_new_ok p : 0 <= p < a -> phase_new filter a b p = OK (phase_of p).
  Proof.
    intros Hp. pose proof a_pos. pose proof b_pos. unfold phase_new.
    destruct (while_inv (fun np => np mod a = (p - b) mod a /\ np < a) (fun np => Z.to_nat (- np))
      (fun np => np <? 0) (fun np => OK (np + a))) with (fuel := Z.to_nat (b + 1)) (s := p - b) as (np & E & (I1 & I2) & I3).
    - intros s [I1 I2] Hc. apply Z.ltb_lt in Hc. exists (s + a). splits; [auto| | |lia].
      + rewrite <- I1. replace (s + a) with (s + 1 * a) by lia. rewrite Z.mod_add by lia. reflexivity.
      + lia.
    - split; [reflexivity|lia].
    - lia.
    - rewrite E. cbn [bind]. apply Z.ltb_ge in I3. rewrite Z.rem_mod_nonneg by lia. rewrite I1.
      destruct (for_up_inv (fun i f => f = ztab i (fun i => Zn filter (i * a + p))) 0 (zip_ p)
        (fun i f => v <- aget filter (i * a + p) ;; OK (f ++ [v])) []) as (f & E2 & ->).
      + pose proof (zip_pos p Hp). lia.
      + now rewrite ztab_0 by lia.
      + intros i s Hi ->. pose proof (zip_bounds p). rewrite (aget_OK zero) by nia. cbn [bind].
        eexists; split; [reflexivity|]. rewrite ztab_snoc by lia. reflexivity.
      + fold (zip_ p). rewrite E2. reflexivity.
  Qed.

  Definition fill_ : Z := (h + lat * b) / a.
  Definition phase0 : Z := (h + lat * b) mod a.
  Lemma fill_eq : fill_ * a + phase0 = h + lat * b.
  Proof. unfold fill_, phase0. pose proof (Z_div_mod_eq_full (h + lat * b) a). lia. Qed.
  Lemma phase0_bounds : 0 <= phase0 < a.
  Proof. apply Z.mod_pos_bound, a_pos. Qed.
  Lemma fill_nonneg : 0 <= fill_.
  Proof. apply Z.div_pos; [|apply a_pos]. pose proof h_bounds. pose proof lat_nonneg. pose proof b_pos. nia. Qed.

  Lemma new_ok : resampler_new zero source target filter scale =
    OK (mkRsm source target lat scale (ztab a phase_of) phase0 (repeat zero (Z.to_nat fill_)) 0).
  Proof.
    pose proof g_pos. pose proof a_pos. pose proof b_pos. pose proof h_bounds. pose proof lat_nonneg.
    unfold resampler_new. rewrite gcd_spec by lia.
    replace (Z.gcd (Z.min source target) (Z.max source target)) with g.
    2: { destruct (Z.le_gt_cases source target); [now rewrite Z.min_l, Z.max_r by lia|].
         rewrite Z.min_r, Z.max_l by lia. apply Z.gcd_comm. }
    cbn [bind]. rewrite !Z.quot_div_nonneg by lia. fold a. fold b.
    change (target / g) with a. change (source / g) with b.
    destruct (Z.ltb_spec a 0); [lia|].
    destruct (for_up_inv (fun i ps => ps = ztab i phase_of) 0 a
      (fun phase ps => p <- phase_new filter a b phase ;; OK (ps ++ [p])) []) as (ps & E & ->).
    - lia.
    - now rewrite ztab_0 by lia.
    - intros i s Hi ->. rewrite phase_new_ok by lia. cbn [bind]. eexists; split; [reflexivity|].
      now rewrite ztab_snoc by lia.
    - rewrite E. cbn [bind]. destruct (Z.eqb_spec b 0); [lia|]. destruct (Z.eqb_spec a 0); [lia|]. cbn [orb].
      rewrite Z.rem_mod_nonneg, Z.quot_div_nonneg by nia. reflexivity.
  Qed.

  Hypothesis Hb : b <= flen.
  Lemma drop_le_zip p : 0 <= p < a -> drop_ p <= zip_ p.
  Proof.
    intros. pose proof (zip_bounds p). pose proof a_pos. pose proof (zip_pos p H).
    unfold drop_. pose proof (cdiv_ceil (Z.max 0 (b - p)) a ltac:(lia)) as C. unfold is_ceil in C. nia.
  Qed.

  (** The stream as the resampler sees it: silence, then the input. *)
  Definition stream (x : list T) : list T := repeat zero (Z.to_nat fill_) ++ x.

  (** State after input [x] and [J] outputs, during a call. *)
  Definition ok (r : rsm T) (x : list T) (J : Z) : Prop :=
    r_src r = source /\ r_tgt r = target /\ r_latency r = lat /\ r_scale r = scale /\
    r_phases r = ztab a phase_of /\ 0 <= r_phase r < a /\ 0 <= r_origin r <= zlen (r_buf r) /\
    exists base, 0 <= base <= zlen (stream x) /\ r_buf r = skipn (Z.to_nat base) (stream x) /\
      (base + r_origin r) * a - r_phase r = - phase0 + J * b.

  Lemma ok_len r x J : ok r x J ->
    (zip_ (r_phase r) + r_origin r <= zlen (r_buf r) <-> (J - lat) * b + (flen - h) <= zlen x * a).
  Proof.
    intros (E1 & E2 & E3 & E4 & E5 & Hp & Ho & base & Hb1 & Eb & Ev).
    rewrite Eb. unfold stream in *. pose proof fill_nonneg. zl. rewrite Z2Nat.id in * by lia.
    pose proof (zip_bounds (r_phase r)) as Z1. pose proof a_pos. pose proof fill_eq.
    set (o := r_origin r) in *. set (p := r_phase r) in *. set (A := a) in *. set (B := b) in *. set (zp := zip_ p) in *.
    set (la := lat) in *. set (fi := fill_) in *.
    replace (Z.max 0 (fi + zlen x - base)) with (fi + zlen x - base) by lia.
    split; intros; nia.
  Qed.

  (** One output sample. *)
  Lemma reconstruct_ok r x J : ok r x J -> 0 <= J -> zip_ (r_phase r) + r_origin r <= zlen (r_buf r) ->
    exists v r', reconstructOne zero add mul r = OK (v, r') /\ ok r' x (J + 1) /\
      interpolated zero add mul source target filter scale x (J - lat) (mul scale v) /\
      r_scale r' = scale.
  Proof.
    intros Hok HJ Hz. pose proof Hok as (E1 & E2 & E3 & E4 & E5 & Hp & Ho & base & Hb1 & Eb & Ev).
    pose proof a_pos. pose proof b_pos. pose proof (zip_pos _ Hp) as Zp.
    unfold reconstructOne. rewrite E5, (aget_OK (phase_of 0)) by (zl; lia). rewrite zn_ztab by lia.
    cbn [bind]. cbn [phase_of ph_filter ph_next ph_drop]. zl. rewrite Z.max_r by lia.
    destruct (Z.ltb_spec (zlen (r_buf r)) (zip_ (r_phase r) + r_origin r)); [lia|].
    erewrite for_up_fsum with (f := fun i => mul (Zn (r_buf r) (r_origin r + i)) (Zn filter (i * a + r_phase r))); [|lia|].
    2: { intros i acc Hi. rewrite (aget_OK zero) by lia. cbn [bind]. rewrite (aget_OK zero) by (zl; lia).
         cbn [bind]. rewrite zn_ztab by lia. reflexivity. }
    cbn [bind]. eexists _, _. split; [reflexivity|]. splits.
    - pose proof (drop_step _ Hp) as D. pose proof (drop_le_zip _ Hp). pose proof (drop_nonneg (r_phase r)).
      unfold ok. cbn [r_src r_tgt r_latency r_scale r_phases r_phase r_buf r_origin].
      splits; auto; try apply nphase_bounds; try lia.
      exists base. splits; auto; try lia; try nia.
    - exists (base + r_origin r - fill_), (zip_ (r_phase r)). split; [lia|]. cbv zeta.
      pose proof fill_eq as Fe. pose proof (zip_bounds (r_phase r)) as Zb. pose proof fill_nonneg.
      assert (At : forall i, h + (base + r_origin r - fill_ + i) * a - (J - lat) * b = i * a + r_phase r) by (intros; nia).
      split.
      + intros m. replace m with (base + r_origin r - fill_ + (m - (base + r_origin r - fill_))) by lia.
        rewrite At. set (i := m - (base + r_origin r - fill_)). split; intros; nia.
      + f_equal. apply fsum_ext. intros i Hi. rewrite At. f_equal.
        rewrite Eb, zn_skipn by lia. unfold stream. rewrite zn_app. zl. rewrite !Z2Nat.id by lia.
        destruct (Z.ltb_spec (r_origin r + i + base) fill_).
        * rewrite zn_repeat. rewrite zn_out by lia. reflexivity.
        * f_equal. lia.
    - exact E4.
  Qed.

  (** The output loop: fills while there is room and input. *)
  Lemma fill_out_ok : forall rm r dst k x J, ok r x J -> 0 <= J -> 0 <= k -> k + Z.of_nat rm <= zlen dst ->
    exists r' dst' n, fill_out zero add mul rm r dst k = OK (r', dst', k + n) /\ 0 <= n <= Z.of_nat rm /\
      ok r' x (J + n) /\ zlen dst' = zlen dst /\
      (forall i, i < k \/ k + n <= i -> Zn dst' i = Zn dst i) /\
      (forall i, 0 <= i < n -> interpolated zero add mul source target filter scale x (J + i - lat) (Zn dst' (k + i))) /\
      (n = Z.of_nat rm \/ zlen x * a < (J + n - lat) * b + (flen - h)) /\
      (1 <= n -> (J + n - 1 - lat) * b + (flen - h) <= zlen x * a).
  Proof.
    induction rm as [|rm IH]; intros r dst k x J Hok HJ Hk Hd; cbn [fill_out].
    - exists r, dst, 0. rewrite !Z.add_0_r. splits; auto; try lia.
    - pose proof Hok as (E1 & E2 & E3 & E4 & E5 & Hp & Ho & _).
      pose proof (ok_len _ _ _ Hok) as L. pose proof (zip_pos _ Hp).
      rewrite E5, (aget_OK (phase_of 0)) by (zl; lia). rewrite zn_ztab by lia. cbn [bind].
      cbn [phase_of ph_filter]. zl. rewrite Z.max_r by lia.
      destruct (Z.leb_spec (zip_ (r_phase r) + r_origin r) (zlen (r_buf r))) as [Hz|Hz].
      + destruct (reconstruct_ok _ _ _ Hok HJ Hz) as (v & r1 & Er & Hok1 & Hv & Sc). rewrite Er. cbn [bind].
        rewrite Sc, aset_OK by lia. cbn [bind].
        destruct (IH r1 (upd dst (Z.to_nat k) (mul scale v)) (k + 1) x (J + 1) Hok1)
          as (r2 & dst2 & n & E & Hn & Hok2 & Hl & Hout & Hin & Hend & Hav); [lia|lia|zl; lia|].
        exists r2, dst2, (1 + n). rewrite E. replace (k + 1 + n) with (k + (1 + n)) by lia.
        replace (J + (1 + n)) with (J + 1 + n) by lia. splits; auto; try lia.
        * zl. lia.
        * intros i Hi. rewrite Hout by lia. destruct (Z.lt_ge_cases i 0); [now rewrite !zn_out by lia|].
          rewrite zn_upd by lia. destruct (Z.eqb_spec i k); [lia|reflexivity].
        * intros i Hi. destruct (Z.eq_dec i 0) as [->|Hi0].
          -- rewrite Hout by lia. rewrite !Z.add_0_r, zn_upd, Z.eqb_refl by lia. exact Hv.
          -- specialize (Hin (i - 1) ltac:(lia)).
             replace (J + 1 + (i - 1)) with (J + i) in Hin by lia. replace (k + 1 + (i - 1)) with (k + i) in Hin by lia.
             exact Hin.
        * intros _. destruct (Z.eq_dec n 0) as [->|].
          -- replace (J + 1 + 0 - 1) with J by lia. apply L. exact Hz.
          -- replace (J + 1 + n - 1) with (J + 1 + n - 1) by lia. apply Hav. lia.
      + exists r, dst, 0. rewrite !Z.add_0_r. splits; auto; try lia.
  Qed.

  (** Invariant between calls: at least x*target/source outputs, no more than the input allows. *)
  Definition counted (x : list T) (J : Z) : Prop :=
    0 <= J /\ zlen x * a <= J * b /\ (1 <= J -> (J - 1 - lat) * b + (flen - h) <= zlen x * a).

  Lemma process_ok r x J blk dst :
    ok r x J -> r_origin r = 0 -> counted x J -> (forall c, is_ceil (zlen blk * target) source c -> c <= zlen dst) ->
    exists r' dst' n, resampler_process zero add mul r blk dst (zlen blk) = OK (r', dst', n) /\
      ok r' (x ++ blk) (J + n) /\ r_origin r' = 0 /\ counted (x ++ blk) (J + n) /\
      0 <= n /\ (forall c, is_ceil (zlen blk * target) source c -> n <= c) /\
      zlen dst' = zlen dst /\ (forall i, n <= i -> Zn dst' i = Zn dst i) /\
      (forall i, 0 <= i < n -> interpolated zero add mul source target filter scale (x ++ blk) (J + i - lat) (Zn dst' i)).
  Proof.
    intros Hok Ho (HJ & C1 & C2) Hd. pose proof Hok as (E1 & E2 & E3 & E4 & E5 & Hp & _ & base & Hb1 & Eb & Ev).
    pose proof a_pos. pose proof b_pos. pose proof (zlen_nonneg blk). pose proof fill_nonneg.
    unfold resampler_process. destruct (Z.ltb_spec (zlen blk) 0); [lia|]. rewrite Z.ltb_irrefl. cbn [orb].
    replace (firstn (Z.to_nat (zlen blk)) blk) with blk by (unfold zlen; rewrite Nat2Z.id, firstn_all; reflexivity).
    set (r1 := set_buf r (r_buf r ++ blk) (r_origin r)).
    assert (Hok1 : ok r1 (x ++ blk) J).
    { unfold ok, r1, set_buf. cbn [r_src r_tgt r_latency r_scale r_phases r_phase r_buf r_origin].
      splits; auto; try lia; try (zl; pose proof (zlen_nonneg (r_buf r)); lia).
      exists base. splits; auto; try lia.
      - unfold stream in *. zl. lia.
      - rewrite Eb. unfold stream in *. rewrite app_assoc, (skipn_app _ (_ ++ x)).
        replace (Z.to_nat base - _)%nat with 0%nat; [reflexivity|].
        unfold zlen in Hb1. lia. }
    assert (Es : r_src r1 = source /\ r_tgt r1 = target) by (split; auto). destruct Es as [-> ->].
    pose proof (cdiv_ceil (zlen blk * target) source ltac:(lia)) as CC.
    set (mo := cdiv (zlen blk * target) source) in *.
    assert (Hmo : 0 <= mo) by (unfold is_ceil in CC; nia).
    destruct (fill_out_ok (Z.to_nat mo) r1 dst 0 (x ++ blk) J Hok1) as (r2 & dst2 & n & E & Hn & Hok2 & Hl & Hout & Hin & Hend & Hav);
      [lia|lia|rewrite Z2Nat.id by lia; apply Hd; exact CC|].
    rewrite E. cbn [bind]. rewrite Z.add_0_l. rewrite Z2Nat.id in * by lia.
    pose proof Hok2 as (F1 & F2 & F3 & F4 & F5 & Fp & Fo & base2 & Fb1 & Fb & Fv).
    destruct (Z.ltb_spec (zlen (r_buf r2)) (r_origin r2)); [lia|].
    eexists _, _, _. split; [reflexivity|]. splits; auto; try lia.
    - unfold ok, set_buf. cbn [r_src r_tgt r_latency r_scale r_phases r_phase r_buf r_origin].
      splits; auto; try lia; try (apply zlen_nonneg).
      exists (base2 + r_origin r2). rewrite Fb in Fo. zl. splits; try lia.
      rewrite Fb, skipn_skipn. f_equal. lia.
    - unfold counted. apply ceil_rate in CC. unfold is_ceil in CC. pose proof lat_ceil. zl. splits; try lia.
    - intros c Hc. rewrite (ceil_unique _ source _ _ ltac:(lia) Hc CC). lia.
  Qed.

  (** interpolated looks only at the input under the kernel. *)
  Lemma interpolated_more x y j v : interpolated zero add mul source target filter scale x j v ->
    j * b + (flen - h) <= zlen x * a ->
    interpolated zero add mul source target filter scale (x ++ y) j v.
  Proof.
    intros (m0 & cnt & Hc & H & E) Hj. exists m0, cnt. split; [exact Hc|]. split; [exact H|].
    rewrite E. f_equal. apply fsum_ext. intros i Hi. f_equal.
    rewrite zn_app. destruct (Z.ltb_spec (m0 + i) (zlen x)); [reflexivity|].
    pose proof (proj1 (H (m0 + i)) ltac:(lia)). pose proof a_pos. nia.
  Qed.

  Lemma run_ok : forall calls r x J, ok r x J -> r_origin r = 0 -> counted x J -> room source target calls ->
    exists r' outs, resampler_run zero add mul r calls = OK (r', outs) /\
      let n := zlen (written outs) in
      ok r' (x ++ fed calls) (J + n) /\ r_origin r' = 0 /\ counted (x ++ fed calls) (J + n) /\
      within zero source target calls outs /\
      forall i, 0 <= i < n -> interpolated zero add mul source target filter scale (x ++ fed calls) (J + i - lat) (Zn (written outs) i).
  Proof.
    induction calls as [|[blk out] calls IH]; intros r x J Hok Ho HC Hr; cbn [resampler_run].
    - exists r, []. split; [reflexivity|]. cbv zeta. unfold written, fed. cbn [map concat]. zl.
      rewrite app_nil_r, !Z.add_0_r. splits; auto; [constructor|lia].
    - apply Forall_cons_iff in Hr. destruct Hr as [Hr0 Hr].
      destruct (process_ok r x J blk out Hok Ho HC Hr0) as (r1 & o & n & E & Hok1 & Ho1 & HC1 & Hn & Hc & Hl & Hb2 & Hv).
      rewrite E. cbn [bind].
      destruct (IH r1 (x ++ blk) (J + n) Hok1 Ho1 HC1 Hr) as (r2 & os & E2 & Hok2 & Ho2 & HC2 & Hw & Hv2).
      rewrite E2. cbn [bind]. exists r2, ((o, n) :: os). split; [reflexivity|]. cbv zeta.
      unfold written, fed in *. cbn [map concat fst] in *. rewrite <- app_assoc in *.
      assert (Hno : n <= zlen o).
      { rewrite Hl. pose proof (cdiv_ceil (zlen blk * target) source ltac:(lia)) as CC.
        pose proof (Hc _ CC). pose proof (Hr0 _ CC). lia. }
      zl. replace (Z.min (Z.of_nat (Z.to_nat n)) (zlen o)) with n by lia. rewrite Z.add_assoc.
      splits; auto.
      + constructor; auto.
      + intros i Hi. rewrite zn_app. zl. replace (Z.min (Z.of_nat (Z.to_nat n)) (zlen o)) with n by lia.
        destruct (Z.ltb_spec i n).
        * rewrite zn_firstn by lia.
          rewrite app_assoc. apply interpolated_more; [apply Hv; lia|].
          pose proof (proj1 HC). destruct HC1 as (_ & _ & HC1). specialize (HC1 ltac:(lia)). pose proof b_pos. nia.
        * specialize (Hv2 (i - n) ltac:(lia)). replace (J + n + (i - n)) with (J + i) in Hv2 by lia. exact Hv2.
  Qed.

  Lemma new_state : ok (mkRsm source target lat scale (ztab a phase_of) phase0 (repeat zero (Z.to_nat fill_)) 0) [] 0 /\ counted [] 0.
  Proof.
    pose proof fill_nonneg. split.
    - unfold ok. cbn [r_src r_tgt r_latency r_scale r_phases r_phase r_buf r_origin]. zl. splits; auto; try apply phase0_bounds; try lia.
      exists 0. unfold stream. zl. splits; try lia. rewrite app_nil_r. reflexivity.
    - unfold counted. zl. splits; lia.
  Qed.

  Theorem resampler_stream calls : room source target calls ->
    exists r0 r outs lat', resampler_new zero source target filter scale = OK r0 /\
      resampler_run zero add mul r0 calls = OK (r, outs) /\
      r_latency r0 = lat' /\ is_latency source target filter lat' /\
      within zero source target calls outs /\
      (forall c, is_ceil (zlen (fed calls) * target) source c -> c <= zlen (written outs) <= c + 1) /\
      forall j, 0 <= j < zlen (written outs) ->
        interpolated zero add mul source target filter scale (fed calls) (j - lat') (Zn (written outs) j).
  Proof.
    intros Hr. destruct new_state as [Hok HC].
    destruct (run_ok calls _ _ _ Hok eq_refl HC Hr) as (r & outs & E & Hok' & Ho' & HC' & Hw & Hv).
    rewrite new_ok. eexists _, r, outs, lat. split; [reflexivity|]. cbn [app] in *. splits; auto.
    - exact (cdiv_ceil _ _ b_pos).
    - intros c Hc. apply ceil_rate in Hc. destruct HC' as (C0 & C1 & C2). rewrite Z.add_0_l in *.
      pose proof lat_ceil. pose proof b_pos. unfold is_ceil in Hc.
      pose proof (zlen_nonneg (fed calls)). pose proof a_pos. split; [nia|]. destruct (Z.le_gt_cases (zlen (written outs)) 0); [nia|]. specialize (C2 ltac:(lia)). set (W := zlen (written outs)) in *. assert ((W - 2) * b < c * b) by (zl; nia). nia.
  Qed.

  Lemma process_vec_ok r x J blk : ok r x J -> r_origin r = 0 -> counted x J ->
    exists r' out, resampler_process_vec zero add mul r blk (zlen blk) = OK (r', out) /\
      exists o n, resampler_process zero add mul r blk (repeat zero (Z.to_nat (cdiv (zlen blk * target) source))) (zlen blk) = OK (r', o, n) /\
        out = firstn (Z.to_nat n) o.
  Proof.
    intros Hok Ho HC. pose proof Hok as (E1 & E2 & _). unfold resampler_process_vec. rewrite E1, E2.
    pose proof (cdiv_ceil (zlen blk * target) source ltac:(lia)) as CC.
    set (mo := cdiv (zlen blk * target) source) in *. pose proof (zlen_nonneg blk).
    assert (Hmo : 0 <= mo) by (unfold is_ceil in CC; nia). destruct (Z.ltb_spec mo 0); [lia|].
    destruct (process_ok r x J blk (repeat zero (Z.to_nat mo)) Hok Ho HC) as (r1 & o & n & E & _ & _ & _ & Hn & Hc & Hl & _).
    { intros c Hc. zl. rewrite (ceil_unique _ source _ _ ltac:(lia) Hc CC). lia. }
    rewrite E. cbn [bind]. specialize (Hc _ CC). destruct (Z.ltb_spec mo n); [lia|].
    eexists _, _. split; [reflexivity|]. exists o, n. split; [reflexivity|].
    destruct (Z.ltb_spec n mo); [reflexivity|]. rewrite firstn_all2; [reflexivity|]. zl. unfold zlen in Hl. lia.
  Qed.

  (** After any calls, the overload returning a vector returns what the other writes. *)
  Theorem process_vec_same calls blk : room source target calls ->
    exists r0 r outs r' out o n, resampler_new zero source target filter scale = OK r0 /\
      resampler_run zero add mul r0 calls = OK (r, outs) /\
      resampler_process_vec zero add mul r blk (zlen blk) = OK (r', out) /\
      resampler_process zero add mul r blk (repeat zero (Z.to_nat (cdiv (zlen blk * target) source))) (zlen blk) = OK (r', o, n) /\
      out = firstn (Z.to_nat n) o.
  Proof.
    intros Hr. destruct new_state as [Hok HC].
    destruct (run_ok calls _ _ _ Hok eq_refl HC Hr) as (r & outs & E & Hok' & Ho' & HC' & _).
    destruct (process_vec_ok r _ _ blk Hok' Ho' HC') as (r' & out & E2 & o & n & E3 & E4).
    rewrite new_ok. eexists _, r, outs, r', out, o, n. splits; eauto.
  Qed.

  Lemma interpolated_pad x k j v : interpolated zero add mul source target filter scale (x ++ repeat zero k) j v ->
    interpolated zero add mul source target filter scale x j v.
  Proof.
    intros (m0 & cnt & Hc & H & E). exists m0, cnt. split; [exact Hc|]. split; [exact H|].
    rewrite E. f_equal. apply fsum_ext. intros i Hi. f_equal. rewrite zn_app.
    destruct (Z.ltb_spec (m0 + i) (zlen x)); [reflexivity|]. rewrite zn_repeat. now rewrite zn_out by lia.
  Qed.

  Theorem resample_ok data n : 0 <= n <= zlen data ->
    exists out, resample zero add mul source target filter scale data n = OK out /\
      is_ceil (n * target) source (zlen out) /\
      forall j, 0 <= j < zlen out ->
        interpolated zero add mul source target filter scale (firstn (Z.to_nat n) data) j (Zn out j).
  Proof.
    intros Hn. destruct new_state as [Hok HC]. unfold resample. rewrite new_ok. cbn [bind r_latency].
    pose proof lat_nonneg. pose proof lat_ceil as LC. pose proof a_pos. pose proof b_pos.
    pose proof (cdiv_ceil (lat * source) target ltac:(lia)) as CP. set (ip := cdiv (lat * source) target) in *.
    pose proof (cdiv_ceil ((n + ip) * target) source ltac:(lia)) as C1. set (m1 := cdiv ((n + ip) * target) source) in *.
    pose proof (cdiv_ceil (n * target) source ltac:(lia)) as CM. set (m := cdiv (n * target) source) in *.
    assert (Hip : 0 <= ip) by (unfold is_ceil in CP; nia).
    assert (Hm : 0 <= m) by (unfold is_ceil in CM; nia).
    assert (Hm1 : m <= m1) by (apply (ceil_le _ source _ _ ltac:(lia) CM); unfold is_ceil in C1; nia).
    replace (n + ip - n) with ip by lia.
    destruct (Z.ltb_spec ip 0); [lia|]. destruct (Z.ltb_spec (m1 + 1) 0); [lia|]. cbn [orb].
    set (x := firstn (Z.to_nat n) data). assert (Lx : zlen x = n) by (unfold x; zl; lia).
    match goal with |- context [resampler_process _ _ _ ?R ?D ?O n] =>
      assert (Ep : resampler_process zero add mul R D O n = resampler_process zero add mul R x O (zlen x));
      [|rewrite Ep; clear Ep;
        destruct (process_ok R [] 0 x O Hok eq_refl HC) as (r1 & o1 & n1 & E & Hok1 & Ho1 & HC1 & Hn1 & Hc1 & Hl1 & Hb1 & Hv1)] end.
    { unfold resampler_process. rewrite Lx. replace (firstn (Z.to_nat n) x) with x.
      2: { unfold x. rewrite firstn_firstn. f_equal. lia. }
      fold x. destruct (Z.ltb_spec n 0); [lia|]. destruct (Z.ltb_spec (zlen data) n); [lia|]. rewrite Z.ltb_irrefl. reflexivity. }
    { intros c Hc. rewrite Lx in Hc. zl. rewrite (ceil_unique _ source _ _ ltac:(lia) Hc CM). lia. }
    rewrite E. cbn [bind]. clear E. rewrite Lx in Hc1. specialize (Hc1 _ CM). zl.
    rewrite Z2Nat.id in Hl1 by lia. cbn [app] in *. rewrite Z.add_0_l in *.
    assert (Rm : forall c, is_ceil (ip * target) source c -> c <= m1 + 1 - n1).
    { intros c Hc. apply ceil_rate in Hc, C1, CM. unfold is_ceil in Hc, C1, CM.
      assert (n1 + c <= m1 + 1); [|lia].
      assert ((n1 + c - 1) * b < (m1 + 1) * b); [|nia]. nia. }
    set (pad := repeat zero (Z.to_nat ip)). assert (Lp : zlen pad = ip) by (unfold pad; zl; lia).
    destruct (process_ok r1 x n1 pad (skipn (Z.to_nat n1) o1) Hok1 Ho1 HC1) as (r2 & o2 & n2 & E & Hok2 & Ho2 & HC2 & Hn2 & Hc2 & Hl2 & Hb2 & Hv2).
    { intros c Hc. rewrite Lp in Hc. zl. specialize (Rm _ Hc). lia. }
    rewrite Lp in E. rewrite (Z2Nat.id ip) by lia. rewrite E. cbn [bind]. clear E.
    pose proof (cdiv_ceil (ip * target) source ltac:(lia)) as C2. set (c2 := cdiv (ip * target) source) in *.
    rewrite Lp in Hc2. specialize (Hc2 _ C2). specialize (Rm _ C2).
    assert (Lo : zlen (firstn (Z.to_nat n1) o1 ++ o2) = m1 + 1) by (zl; lia).
    destruct HC2 as (K0 & K1 & K2). rewrite zlen_app, Lx, Lp in K1, K2.
    assert (G : m <= n1 + n2 - lat).
    { apply ceil_rate in CM. apply (ceil_le _ b _ _ ltac:(lia) CM).
      assert (lat * b <= ip * a); [|nia]. destruct CP as [CP _]. pose proof g_pos as G. pose proof a_eq as EA. pose proof b_eq as EB.
      assert (lat * b * g <= ip * a * g); [|nia].
      replace (lat * b * g) with (lat * source) by (rewrite <- Z.mul_assoc, <- EB; reflexivity).
      replace (ip * a * g) with (ip * target) by (rewrite <- Z.mul_assoc, <- EA; reflexivity). exact CP. }
    replace (if m <? n1 + n2 - lat then m else n1 + n2 - lat) with m by (zcase; lia).
    destruct (Z.ltb_spec m 0); [lia|]. rewrite Lo. destruct (Z.ltb_spec (m1 + 1) (lat + m)); [lia|]. cbn [orb].
    eexists; split; [reflexivity|].
    assert (Lr : zlen (firstn (Z.to_nat m) (skipn (Z.to_nat lat) (firstn (Z.to_nat n1) o1 ++ o2))) = m).
    { rewrite zlen_firstn, zlen_skipn, Lo. lia. }
    split; [rewrite Lr; exact CM|]. rewrite Lr. intros j Hj.
    rewrite zn_firstn, zn_skipn by lia. rewrite Z2Nat.id by lia. rewrite zn_app.
    assert (L1 : zlen (firstn (Z.to_nat n1) o1) = n1) by (zl; lia). rewrite L1.
    apply (interpolated_pad x (Z.to_nat ip)). fold pad.
    destruct (Z.ltb_spec (j + lat) n1).
    - rewrite zn_firstn by lia. specialize (Hv1 (j + lat) ltac:(lia)). rewrite Z.add_0_l in Hv1.
      replace (j + lat - lat) with j in Hv1 by lia. apply interpolated_more; [exact Hv1|].
      destruct HC1 as (_ & _ & K). specialize (K ltac:(lia)). nia.
    - specialize (Hv2 (j + lat - n1) ltac:(lia)).
      replace (n1 + (j + lat - n1) - lat) with j in Hv2 by lia. exact Hv2.
  Qed.
End P.

(** Determined by the input. *)
Lemma interpolated_unique {T} (zero : T) add mul s t k sc x j v v' :
  interpolated zero add mul s t k sc x j v -> interpolated zero add mul s t k sc x j v' -> v = v'.
Proof.
  intros (m0 & c & Hc & H & ->) (m0' & c' & Hc' & H' & ->).
  assert (E : forall m, m0 <= m < m0 + c <-> m0' <= m < m0' + c').
  { intros m. rewrite H. rewrite H'. reflexivity. }
  assert (c = c' /\ (0 < c -> m0 = m0')) as [<- Em].
  { pose proof (E m0). pose proof (E m0'). pose proof (E (m0 + c - 1)). pose proof (E (m0' + c' - 1)). lia. }
  destruct (Z.eq_dec c 0) as [->|]; [now rewrite !fsum_0 by lia|].
  rewrite Em by lia. reflexivity.
Qed.

(** When a reduced source rate exceeds the length of the filter the object can be driven into the
    logic_error of process(). *)
Theorem resampler_throws {T} (zero : T) add mul s filter scale :
  3 <= zlen filter < s -> s <= INT_MAX ->
  exists calls r0, room s 1 calls /\ resampler_new zero s 1 filter scale = OK r0 /\
    resampler_run zero add mul r0 calls = Throw.
Proof.
  intros [H3 Hf] Hs. set (flen := zlen filter) in *. set (h := flen / 2).
  assert (Hh : 1 <= h /\ h + 2 <= flen).
  { unfold h. pose proof (Z_div_mod_eq_full flen 2). pose proof (Z.mod_pos_bound flen 2). lia. }
  assert (Ea : reduced_target s 1 = 1) by (unfold reduced_target; rewrite Z.gcd_1_r; reflexivity).
  assert (Eb : reduced_source s 1 = s) by (unfold reduced_source; rewrite Z.gcd_1_r; apply Z.div_1_r).
  assert (Hs1 : 1 <= s <= INT_MAX) by lia. assert (Ht1 : 1 <= 1 <= INT_MAX) by (unfold INT_MAX; lia).
  assert (Ha1 : reduced_target s 1 <= flen) by (rewrite Ea; lia).
  pose proof (new_ok zero s 1 filter scale Hs1 Ht1 Ha1) as N.
  unfold fill_, phase0 in N. rewrite Ea, Eb in N. fold flen in N. fold h in N.
  assert (El : cdiv (flen - h) s = 1).
  { pose proof (cdiv_ceil (flen - h) s ltac:(lia)) as C. unfold is_ceil in C. nia. }
  rewrite El in N. rewrite Z.div_1_r, Z.mod_1_r in N. replace (h + 1 * s) with (h + s) in N by lia.
  set (p0 := phase_of zero s 1 filter 0) in *.
  change (ztab 1 (phase_of zero s 1 filter)) with [p0] in N.
  assert (Z0 : zip_ s 1 filter 0 = flen).
  { unfold zip_. rewrite Ea. fold flen. rewrite Z.sub_0_r. unfold cdiv. rewrite Z.div_1_r. lia. }
  assert (D0 : drop_ s 1 0 = s).
  { unfold drop_. rewrite Ea, Eb, Z.sub_0_r, Z.max_r by lia. unfold cdiv. rewrite Z.div_1_r. lia. }
  assert (N0 : nphase s 1 0 = 0) by (unfold nphase; rewrite Ea; apply Z.mod_1_r).
  assert (P0 : p0 = mkPhase 0 (ztab flen (fun i => zn zero filter (i * 1 + 0))) s).
  { unfold p0, phase_of. rewrite Z0, D0, N0, Ea. reflexivity. }
  (* one output from any buffer of n samples *)
  assert (Step : forall n buf dst, flen <= zlen buf -> 1 <= n <= s -> zlen dst = 1 ->
    exists dst', fill_out zero add mul (Z.to_nat (cdiv (n * 1) s)) (mkRsm s 1 1 scale [p0] 0 buf 0) dst 0 =
      OK (mkRsm s 1 1 scale [p0] 0 buf s, dst', 1) /\ zlen dst' = 1).
  { intros n buf dst Hb Hn Hd. replace (cdiv (n * 1) s) with 1.
    2: { pose proof (cdiv_ceil (n * 1) s ltac:(lia)) as C. unfold is_ceil in C. nia. }
    change (Z.to_nat 1) with 1%nat. cbn [fill_out r_phases r_phase r_buf r_origin].
    change (aget [p0] 0) with (OK p0). cbn [bind].
    assert (Lp : zlen (ph_filter p0) = flen) by (rewrite P0; cbn [ph_filter]; zl; lia).
    rewrite Lp. destruct (Z.leb_spec (flen + 0) (zlen buf)); [|lia].
    unfold reconstructOne. cbn [r_phases r_phase r_buf r_origin r_src r_tgt r_latency r_scale].
    change (aget [p0] 0) with (OK p0). cbn [bind]. rewrite Lp.
    destruct (Z.ltb_spec (zlen buf) (flen + 0)); [lia|].
    erewrite for_up_fsum with (f := fun i => mul (zn zero buf (0 + i)) (zn zero (ph_filter p0) i)); [|lia|].
    2: { intros i acc Hi. rewrite (aget_OK zero) by lia. cbn [bind]. rewrite (aget_OK zero) by lia. reflexivity. }
    cbn [bind r_scale]. rewrite aset_OK by lia. cbn [bind]. eexists. split.
    - rewrite P0. cbn [ph_next ph_drop]. rewrite Z.add_0_l. reflexivity.
    - zl. exact Hd. }
  exists [([zero], [zero]); (repeat zero (Z.to_nat (flen - h - 1)), [zero])].
  eexists. split; [|split; [exact N|]].
  { repeat constructor; intros c Hc; zl; unfold is_ceil in Hc; nia. }
  cbn [resampler_run].
  unfold resampler_process at 1. cbn [r_src r_tgt r_buf r_origin set_buf r_latency r_scale r_phases r_phase].
  change (zlen [zero]) with 1. change (1 <? 0) with false. change (1 <? 1) with false. cbn [orb].
  change (firstn (Z.to_nat 1) [zero]) with [zero].
  unfold set_buf at 1. cbn [r_src r_tgt r_buf r_origin r_latency r_scale r_phases r_phase].
  destruct (Step 1 (repeat zero (Z.to_nat (h + s)) ++ [zero]) [zero]) as (d1 & E1 & L1); [zl; lia|lia|reflexivity|].
  rewrite E1. cbn [bind r_buf r_origin].
  destruct (Z.ltb_spec (zlen (repeat zero (Z.to_nat (h + s)) ++ [zero])) s) as [Hlt|_]; [zl; lia|].
  unfold set_buf at 1. cbn [r_src r_tgt r_buf r_origin r_latency r_scale r_phases r_phase bind].
  set (buf := skipn (Z.to_nat s) (repeat zero (Z.to_nat (h + s)) ++ [zero])).
  assert (Lb : zlen buf = h + 1) by (unfold buf; zl; lia).
  unfold resampler_process. cbn [r_src r_tgt r_buf r_origin set_buf r_latency r_scale r_phases r_phase].
  zl. rewrite Z2Nat.id by lia. destruct (Z.ltb_spec (flen - h - 1) 0); [lia|]. rewrite Z.ltb_irrefl. cbn [orb].
  unfold set_buf at 1. cbn [r_src r_tgt r_buf r_origin r_latency r_scale r_phases r_phase].
  set (blk := firstn _ (repeat zero _)). assert (Lk : zlen blk = flen - h - 1) by (unfold blk; zl; lia).
  destruct (Step (flen - h - 1) (buf ++ blk) [zero]) as (d2 & E2 & L2); [zl; lia|lia|reflexivity|].
  rewrite E2. cbn [bind r_buf r_origin]. rewrite zlen_app, Lb, Lk.
  destruct (Z.ltb_spec (h + 1 + (flen - h - 1)) s); [reflexivity|lia].
Qed.
