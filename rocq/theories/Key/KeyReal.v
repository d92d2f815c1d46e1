(** GetKeyMode over exact reals: the keys are those of the best correlation with the mean of
    the last frames. *)
From Coq Require Import List ZArith Reals Lia Lra Bool.
From Verif.Base Require Import Imp Sums RealOps Arith Loops.
From Verif.Key Require Import KeyModel KeySpec KeyProofs.
Import ListNotations.
Open Scope Z_scope.

Local Notation A := Rarith.

Lemma slot_mean_real csize frames k : 1 <= csize -> frames <> [] ->
  slot_mean A 0%R csize frames k = mean_frame (last_n csize frames) k.
Proof.
  intros Hc NE. unfold slot_mean, mean_frame. rewrite zlen_last_n by lia.
  set (n := zlen frames). assert (Hn : 0 <= n) by apply zlen_nonneg.
  rewrite (Z.min_comm csize n). change (a_div A) with Rdiv. change (a_of A) with IZR.
  change (fsum (IZR 0) (a_add A)) with rsum. f_equal.
  rewrite (rsum_ext _ (fun j => zn 0%R (zn [] (last_n csize frames) j) k)
     (fun j => zn 0%R (zn [] frames (n - Z.min csize n + j)) k)).
  2: { intros j Hj. rewrite zn_last_n by lia. reflexivity. }
  destruct (Z.le_gt_cases csize n).
  - rewrite Z.min_r, Z.min_l by lia.
    rewrite <- (rsum_rot csize (- n) (fun i => zn 0%R (zn [] frames (n - csize + i)) k)) by lia.
    reflexivity.
  - rewrite Z.min_l, Z.min_r by lia. apply rsum_ext. intros j Hj. do 2 f_equal.
    replace ((j - n) mod csize) with (j - n + csize); [lia|].
    apply Z.mod_unique with (-1); lia.
Qed.

(** krumCorr of centred vectors is Pearson's coefficient. *)
Lemma kcorr_real f p b :
  kcorr A (cent A f) (cent A (prof A p)) b = pearson 36 f (transposed p b).
Proof.
  unfold kcorr, cent, pearson, avg. change (a_div A) with Rdiv. change (a_of A) with IZR.
  change (fsum (IZR 0) (a_add A)) with rsum. change (a_mul A) with Rmult. change (a_sub A) with Rminus.
  change (a_sqrt A) with sqrt. change (a_lt A) with Rltb.
  change (prof A p) with (profile p). unfold transposed.
  assert (E : rsum 36 (fun i => profile p ((i + 2 - b) mod 36)) = rsum 36 (profile p)).
  { rewrite (rsum_ext _ _ (fun i => profile p ((i + (2 - b)) mod 36))) by (intros; do 2 f_equal; lia).
    apply rsum_rot. lia. }
  rewrite E. reflexivity.
Qed.

Lemma getMax_real l n : 1 <= n <= zlen l ->
  exists i, ggetMax A l n = OK (i, zn 0%R l i) /\ 0 <= i < n /\ forall j, 0 <= j < n -> (zn 0 l j <= zn 0 l i)%R.
Proof.
  intros H. unfold ggetMax. rewrite (aget_OK 0%R) by lia. cbn [bind].
  match goal with |- context [for_up 0 n ?F ?S] =>
    destruct (for_up_inv (fun m s => exists i, s = (i, zn 0%R l i) /\ 0 <= i < n /\
        (forall j, 0 <= j < m -> (zn 0 l j <= zn 0 l i)%R)) 0 n F S) as (s & E & i & -> & Hi & V);
      [lia|exists 0; splits; auto; try lia; intros; lia| |] end.
  - intros i s Hi (j & -> & Hj & V). rewrite (aget_OK 0%R) by lia. cbn [bind].
    eexists; split; [reflexivity|]. change (a_lt A) with Rltb.
    destruct (Rltb_spec (zn 0%R l j) (zn 0%R l i)); eexists; (split; [reflexivity|]); splits; try lia;
      intros k Hk; (assert (k < i \/ k = i) as [?| ->] by lia; [specialize (V k ltac:(lia)); lra|lra]).
  - rewrite E. exists i. auto.
Qed.

Lemma pick_real maj min : zlen maj = 36 -> zlen min = 36 ->
  exists b, pick A maj min = OK (key_of_bin b) /\ 0 <= b < 72 /\
    forall c, 0 <= c < 72 ->
      ((if c <? 36 then zn 0 maj c else zn 0 min (c - 36)) <= (if b <? 36 then zn 0 maj b else zn 0 min (b - 36)))%R.
Proof.
  intros L1 L2. unfold pick. unfold kBinsPerOctave.
  destruct (getMax_real maj 36) as (i & Ei & Hi & Vi); [lia|]. rewrite Ei. ret.
  destruct (getMax_real min 36) as (j & Ej & Hj & Vj); [lia|]. rewrite Ej. ret.
  change (a_lt A) with Rltb. unfold key_of_bin.
  destruct (Rltb_spec (zn 0%R min j) (zn 0%R maj i)).
  - exists i. rewrite Z.quot_div_nonneg by lia. splits; auto; try lia. intros c Hc.
    destruct (Z.ltb_spec i 36); [|lia]. destruct (Z.ltb_spec c 36); [apply Vi; lia|].
    specialize (Vj (c - 36) ltac:(lia)). lra.
  - exists (j + 36). rewrite Z.quot_div_nonneg by lia. splits; auto; try lia. intros c Hc.
    destruct (Z.ltb_spec (j + 36) 36); [lia|]. replace (j + 36 - 36) with j by lia.
    destruct (Z.ltb_spec c 36); [|apply Vj; lia].
    specialize (Vi c ltac:(lia)). lra.
Qed.

Lemma tables : MajProfile = major_profile /\ MinProfile = minor_profile.
Proof. split; reflexivity. Qed.

Lemma pearson_ext n f f' g : (forall i, 0 <= i < n -> f i = f' i) -> pearson n f g = pearson n f' g.
Proof.
  intros H. unfold pearson, avg. rewrite (rsum_ext n f f' H).
  rewrite (rsum_ext n (fun i => (f i - rsum n f' / IZR n) * (f i - rsum n f' / IZR n))%R
    (fun i => (f' i - rsum n f' / IZR n) * (f' i - rsum n f' / IZR n))%R) by (intros; now rewrite H).
  rewrite (rsum_ext n (fun i => (f i - rsum n f' / IZR n) * (g i - rsum n g / IZR n))%R
    (fun i => (f' i - rsum n f' / IZR n) * (g i - rsum n g / IZR n))%R) by (intros; now rewrite H).
  reflexivity.
Qed.

(** The correlations kept after processing [frames]. *)
Lemma corr_real csize frames c : 1 <= csize -> frames <> [] -> 0 <= c < 72 ->
  (if c <? 36 then zn 0%R (ztab 36 (kcorr A (cent A (slot_mean A 0%R csize frames)) (cent A (prof A MajProfile)))) c
   else zn 0%R (ztab 36 (kcorr A (cent A (slot_mean A 0%R csize frames)) (cent A (prof A MinProfile)))) (c - 36))
  = match_of (mean_frame (last_n csize frames)) c.
Proof.
  intros Hc NE H. destruct tables as [-> ->]. unfold match_of.
  destruct (Z.ltb_spec c 36); rewrite zn_ztab by lia; rewrite kcorr_real; apply pearson_ext;
    intros; now apply slot_mean_real.
Qed.

Lemma raw_of_best csize frames k : 1 <= csize -> frames <> [] ->
  raw_of A 0%R csize frames k -> best_key (mean_frame (last_n csize frames)) k.
Proof.
  intros Hc NE H. unfold raw_of in H.
  match type of H with pick A ?x ?y = _ => destruct (pick_real x y) as (b & E & Hb & V); [rewrite zlen_ztab; lia|rewrite zlen_ztab; lia|] end.
  rewrite E in H. injection H as <-. exists b. splits; auto; try lia.
  intros c Hc'. specialize (V c Hc'). now rewrite !corr_real in V by auto.
Qed.

Theorem key_process csize msize frames :
  1 <= csize -> 1 <= msize -> Forall (fun f => zlen f = 36) frames ->
  exists keys s raws, run A csize msize (key_new A csize msize) frames = OK (keys, s) /\
    zlen keys = zlen frames /\ zlen raws = zlen frames /\
    forall i, 0 <= i < zlen frames ->
      best_key (mean_frame (last_n csize (firstn (Z.to_nat (i + 1)) frames))) (zn 0 raws i) /\
      lower_median (last_n msize (firstn (Z.to_nat (i + 1)) raws)) (zn 0 keys i).
Proof.
  intros Hc Hm HF. destruct (run_new A 0%R csize msize frames Hc Hm HF) as (keys & s & raws & E & L & (RL & RK) & M & _).
  exists keys, s, raws. splits; auto. intros i Hi. split; [|now apply M].
  apply raw_of_best; auto; [|now apply RK]. destruct frames; [zl; lia|].
  replace (Z.to_nat (i + 1)) with (S (Z.to_nat i)) by lia. discriminate.
Qed.

(** *** getKeyStrengths *)
Lemma strengths_half_ok corr off ks : zlen corr = 36 -> zlen ks = 24 -> off = 0 \/ off = 36 ->
  exists ks', strengths_half A (map Some corr) off ks = OK ks' /\ zlen ks' = 24 /\
    (forall i, 0 <= i < 24 -> off / 3 <= i < off / 3 + 12 ->
       zn 0%R ks' i = Rmax (Rmax (zn 0%R corr (3 * (i - off / 3))) (zn 0%R corr (3 * (i - off / 3) + 1))) (zn 0%R corr (3 * (i - off / 3) + 2))) /\
    (forall i, 0 <= i < 24 -> ~ off / 3 <= i < off / 3 + 12 -> zn 0%R ks' i = zn 0%R ks i).
Proof.
  intros Lc Lk Ho. unfold strengths_half. unfold kBinsPerOctave. change (36 ÷ 12) with 3.
  set (o := off / 3). assert (Eo : off = 3 * o /\ (o = 0 \/ o = 12)) by (destruct Ho as [-> | ->]; cbn; auto).
  clearbody o. destruct Eo as [-> Eo].
  set (pm k i := if k <=? 3 * i then 0%R else if k =? 3 * i + 1 then zn 0%R corr (3 * i) else
         if k =? 3 * i + 2 then Rmax (zn 0%R corr (3 * i)) (zn 0%R corr (3 * i + 1)) else
         Rmax (Rmax (zn 0%R corr (3 * i)) (zn 0%R corr (3 * i + 1))) (zn 0%R corr (3 * i + 2))).
  match goal with |- context [for_up 0 36 ?F ks] =>
    destruct (for_up_inv (fun k s => zlen s = 24 /\
       forall i, 0 <= i < 24 -> zn 0%R s i =
         if (o <=? i) && (3 * (i - o) <? k) then pm k (i - o) else zn 0%R ks i) 0 36 F ks)
      as (ks' & E & L & V); [lia| | |] end.
  - split; auto. intros i Hi. zcase; cbn [andb]; auto; lia.
  - intros k s Hk (L & V). assert (RD : read (map Some corr) k = OK (zn 0%R corr k)).
    { unfold read. rewrite (aget_OK None) by (zl; lia). ret. rewrite (zn_map Some 0%R) by lia. reflexivity. }
    rewrite RD. ret. rewrite Z.quot_div_nonneg, Z.rem_mod_nonneg by lia.
    pose proof (Z.div_mod k 3 ltac:(lia)) as DM. pose proof (Z.mod_pos_bound k 3 ltac:(lia)) as MB.
    assert (EQ : (k + 3 * o) / 3 = k / 3 + o) by (rewrite (Z.mul_comm 3 o), Z.div_add by lia; lia).
    rewrite EQ. set (q := k / 3) in *. set (r := k mod 3) in *. clearbody q r.
    rewrite (aget_OK 0%R) by lia. ret. change (a_lt A) with Rltb.
    assert (Vq : zn 0%R s (q + o) = if r =? 0 then zn 0%R ks (q + o) else if r =? 1 then zn 0%R corr (3 * q) else Rmax (zn 0%R corr (3 * q)) (zn 0%R corr (3 * q + 1))).
    { rewrite V by lia. unfold pm. replace (q + o - o) with q by lia. zcase; cbn [andb]; auto; lia. }
    assert (STEP : exists v, (if (r =? 0) || Rltb (zn 0%R s (q + o)) (zn 0%R corr k) then aset s (q + o) (zn 0%R corr k) else OK s) = OK (upd s (Z.to_nat (q + o)) v) /\
        v = if r =? 0 then zn 0%R corr k else Rmax (zn 0%R s (q + o)) (zn 0%R corr k)).
    { destruct (Z.eqb_spec r 0); cbn [orb]; [rewrite aset_OK by lia; eauto|].
      destruct (Rltb_spec (zn 0%R s (q + o)) (zn 0%R corr k)).
      - rewrite aset_OK by lia. eexists; split; eauto. rewrite Rmax_right; lra.
      - exists (zn 0%R s (q + o)). split; [|rewrite Rmax_left; lra]. f_equal. symmetry.
        apply (zn_ext 0%R); [zl; auto|]. intros j Hj. rewrite zn_upd by (zl; lia). zcase; congruence. }
    destruct STEP as (v & -> & Ev). eexists; split; [reflexivity|]. split; [zl; lia|].
    intros i Hi. rewrite zn_upd by lia. rewrite Vq in Ev. destruct (Z.eqb_spec i (q + o)) as [->|NE].
    + unfold pm. replace (q + o - o) with q by lia. subst v. replace k with (3 * q + r) by lia.
      assert (r = 0 \/ r = 1 \/ r = 2) as [-> |[-> | ->]] by lia; zcase; cbn [andb]; try lia; rewrite ?Z.add_0_r; auto.
    + rewrite V by lia. unfold pm. zcase; cbn [andb]; auto; try lia.
  - exists ks'. rewrite E. splits; auto.
    + intros i Hi Hr. rewrite V by lia. unfold pm. zcase; cbn [andb]; try lia. auto.
    + intros i Hi Hr. rewrite V by lia. zcase; cbn [andb]; auto; lia.
Qed.

Theorem key_strengths csize msize frames keys s :
  1 <= csize -> 1 <= msize -> frames <> [] -> Forall (fun f => zlen f = 36) frames ->
  run A csize msize (key_new A csize msize) frames = OK (keys, s) ->
  exists ks, getKeyStrengths A s = OK ks /\ zlen ks = 24 /\
    forall k, 1 <= k <= 24 -> zn 0%R ks (k - 1) = key_strength (mean_frame (last_n csize frames)) k.
Proof.
  intros Hc Hm NE HF ER. destruct (run_new A 0%R csize msize frames Hc Hm HF) as (keys' & s' & raws & E & L & _ & _ & C).
  rewrite ER in E. injection E as <- <-. destruct (C NE) as [C1 C2]. unfold getKeyStrengths. rewrite C1, C2. clear C C1 C2.
  set (maj := ztab 36 (kcorr A _ (cent A (prof A MajProfile)))).
  set (min := ztab 36 (kcorr A _ (cent A (prof A MinProfile)))).
  assert (CR : forall c, 0 <= c < 72 -> (if c <? 36 then zn 0%R maj c else zn 0%R min (c - 36)) = match_of (mean_frame (last_n csize frames)) c).
  { intros c H. now apply corr_real. }
  assert (L1 : zlen maj = 36) by (unfold maj; rewrite zlen_ztab; lia).
  assert (L2 : zlen min = 36) by (unfold min; rewrite zlen_ztab; lia). clearbody maj min.
  destruct (strengths_half_ok maj 0 (repeat (a_of A 0) 24)) as (k1 & E1 & L3 & V1 & _); auto.
  rewrite E1. ret. destruct (strengths_half_ok min 36 k1) as (k2 & E2 & L4 & V2 & V3); auto.
  change (36 / 3) with 12 in *. change (0 / 3) with 0 in *.
  unfold kBinsPerOctave. rewrite E2. exists k2. splits; auto. intros k Hk. unfold key_strength.
  rewrite <- !CR by lia. destruct (Z.le_gt_cases k 12).
  - rewrite V3, V1 by lia. zcase; try lia. now rewrite Z.sub_0_r.
  - rewrite V2 by lia. zcase; try lia.
    replace (3 * (k - 1 - 12)) with (3 * (k - 1) - 36) by lia.
    replace (3 * (k - 1) + 1 - 36) with (3 * (k - 1) - 36 + 1) by lia.
    replace (3 * (k - 1) + 2 - 36) with (3 * (k - 1) - 36 + 2) by lia. reflexivity.
Qed.

(** Correlations lie in [-1, 1]. *)
Lemma cauchy_schwarz n f g :
  (rsum n (fun i => f i * g i) * rsum n (fun i => f i * g i) <= rsum n (fun i => f i * f i) * rsum n (fun i => g i * g i))%R.
Proof.
  set (a := rsum n (fun i => (f i * f i)%R)). set (b := rsum n (fun i => (f i * g i)%R)). set (c := rsum n (fun i => (g i * g i)%R)).
  assert (Q : forall t, (0 <= a * t * t + 2 * b * t + c)%R).
  { intros t. assert (E : (a * t * t + 2 * b * t + c)%R = rsum n (fun i => (f i * t + g i) * (f i * t + g i))%R).
    { rewrite (rsum_ext n (fun i => (f i * t + g i) * (f i * t + g i))%R (fun i => (t * t) * (f i * f i) + ((2 * t) * (f i * g i) + g i * g i))%R) by (intros; ring).
      rewrite rsum_plus, rsum_scal, rsum_plus, rsum_scal. fold a b c. ring. }
    rewrite E. apply rsum_nonneg. intros i _. apply Rle_0_sqr. }
  assert (0 <= a)%R by (apply rsum_nonneg; intros; apply Rle_0_sqr).
  assert (0 <= c)%R by (apply rsum_nonneg; intros; apply Rle_0_sqr).
  destruct (Req_dec a 0) as [E|NE].
  - assert (b = 0)%R.
    { destruct (Req_dec b 0) as [?|NB]; auto. specialize (Q (- (c + 1) / (2 * b))%R). rewrite E in Q.
      replace (0 * (- (c + 1) / (2 * b)) * (- (c + 1) / (2 * b)) + 2 * b * (- (c + 1) / (2 * b)) + c)%R with (-1)%R in Q by (field; auto). lra. }
    nra.
  - specialize (Q (- b / a)%R).
    replace (a * (- b / a) * (- b / a) + 2 * b * (- b / a) + c)%R with ((a * c - b * b) / a)%R in Q by (field; auto).
    assert (0 <= (a * c - b * b) / a * a)%R by (apply Rmult_le_pos; lra).
    replace ((a * c - b * b) / a * a)%R with (a * c - b * b)%R in H1 by (field; auto). lra.
Qed.

Lemma pearson_range n f g : (-1 <= pearson n f g <= 1)%R.
Proof.
  unfold pearson. set (u i := (f i - avg n f)%R). set (v i := (g i - avg n g)%R).
  change (rsum n (fun i => (f i - avg n f) * (f i - avg n f))%R) with (rsum n (fun i => u i * u i)%R).
  change (rsum n (fun i => (f i - avg n f) * (g i - avg n g))%R) with (rsum n (fun i => u i * v i)%R).
  change (rsum n (fun i => (g i - avg n g) * (g i - avg n g))%R) with (rsum n (fun i => v i * v i)%R).
  pose proof (cauchy_schwarz n u v) as CS.
  set (a := rsum n (fun i => u i * u i)%R) in *. set (b := rsum n (fun i => u i * v i)%R) in *. set (c := rsum n (fun i => v i * v i)%R) in *.
  destruct (Rltb_spec 0 (sqrt (a * c))) as [P|]; [|lra].
  assert (S : (sqrt (a * c) * sqrt (a * c) = a * c)%R).
  { apply sqrt_sqrt. assert (0 <= a)%R by (apply rsum_nonneg; intros; apply Rle_0_sqr).
    assert (0 <= c)%R by (apply rsum_nonneg; intros; apply Rle_0_sqr). nra. }
  set (r := sqrt (a * c)) in *. assert (- r <= b <= r)%R by (split; nra).
  unfold Rdiv. pose proof (Rinv_0_lt_compat r P). assert (r * / r = 1)%R by (field; lra). split; nra.
Qed.

Theorem match_range chroma b : (-1 <= match_of chroma b <= 1)%R.
Proof. unfold match_of. destruct (b <? 36); apply pearson_range. Qed.

(** *** What goes wrong *)
Theorem no_buffer {T} (B : arith T) csize msize frame :
  zlen frame = 36 -> csize = 0 \/ (1 <= csize /\ msize = 0) ->
  process B csize msize (key_new B csize msize) frame = UB.
Proof.
  intros L [-> |(Hc & ->)].
  - unfold process, smooth, key_new. cbn [chromaBuffer bufferIndex]. rewrite for_up_first by (unfold kBinsPerOctave; lia).
    destruct frame as [|x l]; [zl; lia|]. reflexivity.
  - unfold process. destruct (smooth_ok B (a_of B 0) csize [] (key_new B csize 0) frame Hc (ring_inv_new B _ csize 0 Hc) L) as (b & i & f & E & _).
    rewrite E. ret. rewrite (correlate_ok B (a_of B 0)) by (rewrite zlen_ztab; lia). ret.
    match goal with |- context [pick B ?x ?y] => destruct (pick_ok B (a_of B 0) x y) as (k & Ek & _); [rewrite zlen_ztab; lia|rewrite zlen_ztab; lia|] end.
    rewrite Ek. ret. reflexivity.
Qed.

Theorem strengths_before_process {T} (B : arith T) csize msize :
  getKeyStrengths B (key_new B csize msize) = UB.
Proof.
  unfold getKeyStrengths, strengths_half. rewrite for_up_first by (unfold kBinsPerOctave; lia). reflexivity.
Qed.

Theorem key_range (T : Type) (B : arith T) csize msize frames :
  1 <= csize -> 1 <= msize -> Forall (fun f => zlen f = 36) frames ->
  exists keys s, run B csize msize (key_new B csize msize) frames = OK (keys, s) /\
    zlen keys = zlen frames /\ forall i, 0 <= i < zlen frames -> 1 <= zn 0 keys i <= 24.
Proof.
  intros Hc Hm HF. destruct (run_new B (a_of B 0) csize msize frames Hc Hm HF) as (keys & s & raws & E & L & _ & M & _).
  exists keys, s. splits; auto. intros i Hi. now apply M.
Qed.

Theorem zero_window : exists csize msize (frame : list R), zlen frame = 36 /\
  process A csize msize (key_new A csize msize) frame = UB.
Proof. exists 0, 1, (repeat 0%R 36). split; [reflexivity|]. apply no_buffer; auto. Qed.

Lemma strength_range chroma k : (-1 <= key_strength chroma k <= 1)%R.
Proof.
  unfold key_strength. pose proof (match_range chroma (3 * (k - 1))). pose proof (match_range chroma (3 * (k - 1) + 1)).
  pose proof (match_range chroma (3 * (k - 1) + 2)). unfold Rmax. repeat destruct (Rle_dec _ _); lra.
Qed.

Theorem strengths_spec csize msize frames keys s :
  1 <= csize -> 1 <= msize -> frames <> [] -> Forall (fun f => zlen f = 36) frames ->
  run A csize msize (key_new A csize msize) frames = OK (keys, s) ->
  exists ks, getKeyStrengths A s = OK ks /\ zlen ks = 24 /\
    forall k, 1 <= k <= 24 -> zn 0%R ks (k - 1) = key_strength (mean_frame (last_n csize frames)) k /\
      (-1 <= zn 0%R ks (k - 1) <= 1)%R.
Proof.
  intros H1 H2 H3 H4 H5. destruct (key_strengths csize msize frames keys s H1 H2 H3 H4 H5) as (ks & E & L & V).
  exists ks. splits; auto. intros k Hk. rewrite V by auto. split; auto. apply strength_range.
Qed.

Theorem best_is_strongest chroma k : best_key chroma k ->
  1 <= k <= 24 /\ forall j, 1 <= j <= 24 -> (key_strength chroma j <= key_strength chroma k)%R.
Proof.
  intros (b & Hb & -> & V). unfold key_of_bin.
  pose proof (Z.div_mod b 3 ltac:(lia)) as DM. pose proof (Z.mod_pos_bound b 3 ltac:(lia)) as MB.
  split; [lia|]. intros j Hj. apply Rle_trans with (match_of chroma b).
  - unfold key_strength. repeat apply Rmax_lub; apply V; lia.
  - unfold key_strength. replace (b / 3 + 1 - 1) with (b / 3) by lia. set (q := b / 3) in *. set (r := b mod 3) in *.
    replace b with (3 * q + r) by lia.
    assert (r = 0 \/ r = 1 \/ r = 2) as [-> |[-> | ->]] by lia; rewrite ?Z.add_0_r.
    + eapply Rle_trans; [|apply Rmax_l]. apply Rmax_l.
    + eapply Rle_trans; [|apply Rmax_l]. apply Rmax_r.
    + apply Rmax_r.
Qed.
