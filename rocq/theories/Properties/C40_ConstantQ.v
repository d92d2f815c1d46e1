(** C40, C61, C62: constant-Q transform and chromagram. *)
From Coq Require Import List ZArith Reals Bool Lia Lra.
From Verif.Base Require Import Imp RealOps.
From Verif.Maths Require Import IntSpec RealModel RealSpec.
From Verif.Fft Require Import Cplx FftModel FftSpec FftResults.
From Verif.Chroma Require Import CqModel CqSpec CqLoops CqProofs CqTime CqResults CqCase
  ChromaModel ChromaSpec ChromaProofs ChromaResults ChromaCase.
Import ListNotations.
Open Scope Z_scope.

(** C40: the constructor works in this range; Q, number of bins, FFT length and hop are as documented. *)
Theorem C40_construction :
  forall c jd, usable c -> Zceil (quality (c_bpo c) * c_fs c / c_min c) <= 2 ^ 30 ->
    0 <= Zceil (IZR (c_bpo c) * ln (c_max c / c_min c) / ln 2) < 2 ^ 30 -> exists o, cq_new c jd = OK o.
Proof. exact cq_constructed. Qed.
Print Assumptions C40_construction.
Theorem C40_parameters :
  forall c b o, usable c -> cq_uses c b o ->
    q_dq o = quality (c_bpo c) /\
    q_uk o = Zceil (IZR (c_bpo c) * ln (c_max c / c_min c) / ln 2) /\
    is_next_power (Zceil (quality (c_bpo c) * c_fs c / c_min c)) (q_len o) /\ q_hop o = q_len o / 8.
Proof. exact cq_parameters. Qed.
Print Assumptions C40_parameters.
(** Bins are those with centre frequency below the maximum. *)
Theorem C40_range :
  forall c b o k, usable c -> (0 < c_max c)%R -> cq_uses c b o -> 0 <= k ->
    (k < q_uk o <-> (centre (c_min c) (c_bpo c) k < c_max c)%R).
Proof. exact cq_range. Qed.
Print Assumptions C40_range.
(** The kernel can be made, also again. *)
Theorem C40_kernel :
  forall c b o wr wi tr ti ji jo, usable c -> cq_uses c b o ->
    zlen wr = q_len o -> zlen wi = q_len o -> zlen tr = q_len o -> zlen ti = q_len o -> zlen ji = q_len o -> zlen jo = q_len o ->
    exists o', sparsekernel o wr wi tr ti ji jo = OK o' /\ cq_uses c true o'.
Proof. exact cq_kernel_made. Qed.
Print Assumptions C40_kernel.
Theorem C40_no_kernel :
  forall c o fre fim ore oim, usable c -> cq_uses c false o -> cq_process o fre fim ore oim = OK (ore, oim).
Proof. exact cq_no_kernel. Qed.
Print Assumptions C40_no_kernel.
(** Overload with separate arrays: every bin is the product of its thresholded spectral kernel with the spectrum;
    nothing else is written and nothing of the previous contents is left. *)
Theorem C40_product_partial :
  forall c o fre fim ore oim, let n := q_len o in usable c -> cq_uses c true o ->
    n <= zlen fre -> n <= zlen fim -> q_uk o <= zlen ore -> q_uk o <= zlen oim ->
    exists ore' oim', cq_process o fre fim ore oim = OK (ore', oim') /\
      holds (q_uk o) (fun k => fst (cq_bin (c_fs c) (c_min c) (c_bpo c) (c_thresh c) n (frame fre fim) k)) ore' ore /\
      holds (q_uk o) (fun k => snd (cq_bin (c_fs c) (c_min c) (c_bpo c) (c_thresh c) n (frame fre fim) k)) oim' oim.
Proof. exact cq_product. Qed.
Print Assumptions C40_product_partial.
Theorem C40_linear_partial :
  forall c o a b xr xi yr yi zr zi o1r o1i o2r o2i o3r o3i, let n := q_len o in usable c -> cq_uses c true o ->
    n <= zlen xr -> n <= zlen xi -> n <= zlen yr -> n <= zlen yi -> n <= zlen zr -> n <= zlen zi ->
    q_uk o <= zlen o1r -> q_uk o <= zlen o1i -> q_uk o <= zlen o2r -> q_uk o <= zlen o2i -> q_uk o <= zlen o3r -> q_uk o <= zlen o3i ->
    (forall i, 0 <= i < n -> frame zr zi i = cadd (cmul a (frame xr xi i)) (cmul b (frame yr yi i))) ->
    exists r1 i1 r2 i2 r3 i3, cq_process o xr xi o1r o1i = OK (r1, i1) /\ cq_process o yr yi o2r o2i = OK (r2, i2) /\
      cq_process o zr zi o3r o3i = OK (r3, i3) /\
      forall k, 0 <= k < q_uk o -> frame r3 i3 k = cadd (cmul a (frame r1 i1 k)) (cmul b (frame r2 i2 k)).
Proof. exact cq_linear. Qed.
Print Assumptions C40_linear_partial.
Example C40_case : usable small /\ exists o, cq_uses small true o /\ q_uk o = 1 /\ q_len o = 4 /\
  forall X, cq_bin 4 1 1 (1 / 10) 4 X 0 = cadd (cmul (cre (-135/1000)) (X 3)) (cmul (cre (-575/10000)) (X 2)).
Proof.
  split; [exact small_usable|]. destruct small_object as (o & U & A & B). exists o. splits; auto. exact small_transform.
Qed.

(** Overload with interleaved data: always writes beyond its array once there is a kernel and a bin. *)
Theorem C40_interleaved_refuted :
  exists c o, usable c /\ cq_uses c true o /\ forall fft, cq_process_interleaved o fft = UB.
Proof.
  destruct small_object as (o & U & Hu & Hn). exists small, o. split; [exact small_usable|]. split; auto.
  intros fft. apply (cq_interleaved_overrun small o fft small_usable U). rewrite Hu. lia.
Qed.
Print Assumptions C40_interleaved_refuted.
Theorem C40_interleaved_always_overruns :
  forall c o fft, usable c -> cq_uses c true o -> 1 <= q_uk o -> cq_process_interleaved o fft = UB.
Proof. exact cq_interleaved_overrun. Qed.
Print Assumptions C40_interleaved_always_overruns.
Theorem C40_interleaved_no_kernel :
  forall c o fft, usable c -> cq_uses c false o -> cq_process_interleaved o fft = OK (o, q_data o).
Proof. exact cq_interleaved_no_kernel. Qed.
Print Assumptions C40_interleaved_no_kernel.
(** Were the array long enough, the results would still be those of the spectrum moved by one bin. *)
Theorem C40_interleaved_off_by_one :
  forall c o fre fim fft d, let n := q_len o in usable c -> cq_uses c true o -> n <= zlen fre -> n <= zlen fim ->
    2 * n <= zlen fft -> 2 * q_uk o + 1 <= zlen d ->
    (forall b, 0 <= b < n -> zn 0%R fft (2 * b) = zn 0%R fre b /\ zn 0%R fft (2 * b + 1) = zn 0%R fim b) ->
    exists d', interleaved o fft d = OK d' /\
      forall k, 0 <= k < q_uk o ->
        (zn 0%R d' (2 * k), zn 0%R d' (2 * k + 1)) =
        cq_bin (c_fs c) (c_min c) (c_bpo c) (c_thresh c) n (fun b => frame fre fim (b - 1)) k.
Proof. exact cq_interleaved_off_by_one. Qed.
Print Assumptions C40_interleaved_off_by_one.
Theorem C40_overloads_agree_refuted :
  exists o fre fim fft d ore oim d',
    cq_uses small true o /\ q_len o = 4 /\ q_uk o = 1 /\ zlen fre = 4 /\ zlen fim = 4 /\ zlen fft = 8 /\ zlen d = 3 /\
    (forall b, 0 <= b < 4 -> zn 0%R fft (2 * b) = zn 0%R fre b /\ zn 0%R fft (2 * b + 1) = zn 0%R fim b) /\
    cq_process o fre fim [0%R] [0%R] = OK (ore, oim) /\ interleaved o fft d = OK d' /\
    zn 0%R ore 0 = (-135 / 1000)%R /\ zn 0%R d' 0 = 0%R.
Proof. exact cq_overloads_agree_refuted. Qed.
Print Assumptions C40_overloads_agree_refuted.

(** C61: each filter lies within the frame, and its frequency is that of the bin to one part in its length. *)
Theorem C61_filters_fit :
  forall c b o k, let n := q_len o in let l := window_length (c_fs c) (c_min c) (c_bpo c) k in
    usable c -> cq_uses c b o -> 0 <= k -> 1 <= l <= n /\ 0 <= n / 2 - l / 2 /\ n / 2 - l / 2 + l <= n.
Proof. exact cq_fits. Qed.
Print Assumptions C61_filters_fit.
Theorem C61_frequency :
  forall c k, let l := window_length (c_fs c) (c_min c) (c_bpo c) k in usable c -> 0 <= k ->
    1 <= l /\
    (centre (c_min c) (c_bpo c) k * (1 - 1 / IZR l) < quality (c_bpo c) * c_fs c / IZR l <= centre (c_min c) (c_bpo c) k)%R.
Proof. exact cq_frequency. Qed.
Print Assumptions C61_frequency.
(** Given the spectrum of a signal, bin k is its (time-reversed) correlation with the filter, without the constant
    part of the signal and up to the threshold. *)
Theorem C61_time_domain :
  forall c o xr xi fre fim ore oim, let n := q_len o in usable c -> cq_uses c true o ->
    n <= zlen fre -> n <= zlen fim -> q_uk o <= zlen ore -> q_uk o <= zlen oim ->
    (forall b, 0 <= b < n -> zn 0%R fre b = dft_re n xr xi b /\ zn 0%R fim b = dft_im n xr xi b) ->
    exists ore' oim', cq_process o fre fim ore oim = OK (ore', oim') /\
      forall k, 0 <= k < q_uk o -> exists err,
        frame ore' oim' k =
          cadd (csub (csum n (fun t => cmul (cconj (rotated n (atom (c_fs c) (c_min c) (c_bpo c) n k) t)) (xr ((- t) mod n), xi ((- t) mod n))))
                     (cmul (cre (1 / IZR n)) (cmul (cconj (kernel_bin (c_fs c) (c_min c) (c_bpo c) n k 0)) (frame fre fim 0)))) err /\
        (cabs err <= Rabs (c_thresh c) / IZR n * rsum (n - 1) (fun b => cabs (frame fre fim (b + 1))))%R.
Proof. exact cq_time_domain. Qed.
Print Assumptions C61_time_domain.
Example C61_case : window_length 4 1 1 0 = 4 /\ (forall t, 0 <= t < 4 -> atom 4 1 1 4 0 t = small_atom t) /\
  (centre 1 1 0 = 1 /\ quality 1 * 4 / 4 = 1)%R.
Proof.
  split; [exact small_window|]. split; [exact small_atom_ok|]. rewrite centre_0, quality_1. split; lra.
Qed.

(** C62: chromagram. *)
Theorem C62_construction :
  forall c f, let l := Zceil (quality (h_bpo c) * h_fs c / h_min c) in
    chroma_usable c -> 2 <= l <= 2 ^ 30 -> 0 <= h_bpo c * octaves_of c < 2 ^ 30 ->
    (forall n, is_next_power l n -> fresh_for c n (h_bpo c * octaves_of c) f) ->
    exists o, chroma_new c f = OK o /\ chroma_uses c o /\ is_next_power l (g_size o) /\ g_uk o = h_bpo c * octaves_of c /\ g_hop o = g_size o / 8.
Proof. exact chroma_constructed. Qed.
Print Assumptions C62_construction.
Theorem C62_construction_throws :
  forall c f, chroma_usable c -> Zceil (quality (h_bpo c) * h_fs c / h_min c) <= 1 -> 0 <= h_bpo c * octaves_of c < 2 ^ 30 ->
    chroma_new c f = Throw.
Proof. exact chroma_constructor_throws. Qed.
Print Assumptions C62_construction_throws.
(** The result is a function of the frame only: magnitudes of the constant-Q bins added over octaves, normalised. *)
Theorem C62_spectrum :
  forall c o s re im, let n := g_size o in chroma_usable c -> chroma_uses c o -> scratch_for n s ->
    n <= zlen re -> n <= zlen im ->
    exists o' d, process_freq o s re im = OK (o', d) /\ chroma_uses c o' /\ g_size o' = n /\ zlen d = h_bpo c /\
      is_normalised (h_norm c) (h_bpo c)
        (pitch_class (h_bpo c) (octaves_of c) (cq_bin (h_fs c) (h_min c) (h_bpo c) (h_thresh c) n (frame re im))) (zn 0%R d).
Proof. exact chroma_freq. Qed.
Print Assumptions C62_spectrum.
Theorem C62_samples :
  forall c o s jbuf data, let n := g_size o in chroma_usable c -> chroma_uses c o -> scratch_for n s ->
    zlen jbuf = n -> n <= zlen data ->
    exists o' d, process_time o s jbuf data = OK (o', d) /\ chroma_uses c o' /\ g_size o' = n /\ zlen d = h_bpo c /\
      is_normalised (h_norm c) (h_bpo c)
        (pitch_class (h_bpo c) (octaves_of c) (cq_bin (h_fs c) (h_min c) (h_bpo c) (h_thresh c) n
           (spectrum n (rotated n (windowed n (zn 0%R data)))))) (zn 0%R d).
Proof. exact chroma_time. Qed.
Print Assumptions C62_samples.
Theorem C62_ways_agree :
  forall c o1 o2 s1 s2 jbuf data re im, let n := g_size o1 in chroma_usable c -> chroma_uses c o1 -> chroma_uses c o2 -> g_size o2 = n ->
    scratch_for n s1 -> scratch_for n s2 -> zlen jbuf = n -> n <= zlen data -> n <= zlen re -> n <= zlen im ->
    (forall b, 0 <= b < n -> frame re im b = spectrum n (rotated n (windowed n (zn 0%R data))) b) ->
    exists p1 p2 d, process_time o1 s1 jbuf data = OK (p1, d) /\ process_freq o2 s2 re im = OK (p2, d).
Proof. exact chroma_ways_agree. Qed.
Print Assumptions C62_ways_agree.
Theorem C62_level :
  forall c o1 o2 s1 s2 re im re' im' g, let n := g_size o1 in chroma_usable c -> chroma_uses c o1 -> chroma_uses c o2 -> g_size o2 = n ->
    scratch_for n s1 -> scratch_for n s2 -> n <= zlen re -> n <= zlen im -> n <= zlen re' -> n <= zlen im' -> g <> 0%R ->
    (forall i, 0 <= i < n -> zn 0%R re' i = (g * zn 0%R re i)%R /\ zn 0%R im' i = (g * zn 0%R im i)%R) ->
    exists p1 d1 p2 d2, process_freq o1 s1 re im = OK (p1, d1) /\ process_freq o2 s2 re' im' = OK (p2, d2) /\
      forall i, 0 <= i < h_bpo c ->
        (0 <= zn 0%R d1 i)%R /\ (h_norm c <> NormaliseNone -> (zn 0%R d1 i <= 1)%R) /\
        zn 0%R d2 i = match h_norm c with NormaliseNone => Rabs g * zn 0%R d1 i | _ => zn 0%R d1 i end%R.
Proof. exact chroma_level. Qed.
Print Assumptions C62_level.
(** What the values mean for the samples. *)
Theorem C62_meaning :
  forall c n x i, let X := spectrum n (rotated n (windowed n x)) in half_ok n ->
    (Rabs (pitch_class (h_bpo c) (octaves_of c) (cq_bin (h_fs c) (h_min c) (h_bpo c) (h_thresh c) n X) i -
           rsum (octaves_of c) (fun o => cabs (csum n (fun t =>
             cmul (cconj (atom (h_fs c) (h_min c) (h_bpo c) n (o * h_bpo c + i) t)) (windowed n x ((- t) mod n))))))
     <= rsum (octaves_of c) (fun o =>
          cabs (kernel_bin (h_fs c) (h_min c) (h_bpo c) n (o * h_bpo c + i) 0) * cabs (X 0%Z) / IZR n +
          Rabs (h_thresh c) / IZR n * rsum (n - 1) (fun b => cabs (X (b + 1)%Z))))%R.
Proof. exact chroma_meaning. Qed.
Print Assumptions C62_meaning.
Example C62_case : chroma_usable small_chroma /\
  exists o o' d, chroma_new small_chroma small_fresh = OK o /\ chroma_uses small_chroma o /\ g_size o = 4 /\
    process_freq o small_scratch [0; 0; 0; 1]%R [0; 0; 0; 0]%R = OK (o', d) /\ d = [(135 / 1000)%R].
Proof. split; [exact small_chroma_usable|exact small_chroma_case]. Qed.
