(** Model of dsp/chromagram/Chromagram.{h,cpp} over exact reals.
    Uninitialised arrays have the contents passed as parameters. *)
From Coq Require Import List ZArith Reals Lia Bool.
From Verif.Base Require Import Imp RealOps.
From Verif.Maths Require Import IntModel RealModel.
From Verif.Windows Require Import WindowModel.
From Verif.Fft Require Import Cplx FftModel FftrModel.
From Verif.Chroma Require Import CqModel.
Import ListNotations.
Open Scope Z_scope.

(** struct ChromaConfig, Chromagram.h:23-30. *)
Record chromaconfig := { h_fs : R; h_min : R; h_max : R; h_bpo : Z; h_thresh : R; h_norm : norm_type }.

(** class Chromagram, Chromagram.h:32-90; [g_window = None] is the null pointer. *)
Record chroma := {
  g_bpo : Z; g_norm : norm_type; g_data : list R; g_cq : cq; g_generated : bool; g_uk : Z; g_size : Z; g_hop : Z;
  g_fft : fftreal; g_re : list R; g_im : list R; g_cqre : list R; g_cqim : list R;
  g_window : option (list R); g_buf : list R
}.

(** Contents of the arrays allocated by the constructor. *)
Record fresh := {
  f_data : list R; f_cq : list R; f_1 : list cplx; f_2 : list cplx; f_c : list cplx;
  f_re : list R; f_im : list R; f_cqre : list R; f_cqim : list R
}.

(** The configuration handed to ConstantQ, Chromagram.cpp:30-50: the range is extended to whole octaves. *)
Definition cq_config (c : chromaconfig) : cqconfig :=
  let octaves := (ln (h_max c / h_min c) / ln 2)%R in
  {| c_fs := h_fs c; c_min := h_min c; c_max := (h_min c * Rpower 2 (IZR (Zceil octaves)))%R;
     c_bpo := h_bpo c; c_thresh := h_thresh c |}.

(** Chromagram::Chromagram and initialise, Chromagram.cpp:22-75. *)
Definition chroma_new (c : chromaconfig) (f : fresh) : res chroma :=
  q <- cq_new (cq_config c) (f_cq f) ;;
  t <- fftreal_new (q_len q) (f_1 f) (f_2 f) (f_c f) ;;
  OK {| g_bpo := h_bpo c; g_norm := h_norm c; g_data := f_data f; g_cq := q; g_generated := false;
        g_uk := q_uk q; g_size := q_len q; g_hop := q_hop q; g_fft := t;
        g_re := f_re f; g_im := f_im f; g_cqre := f_cqre f; g_cqim := f_cqim f; g_window := None; g_buf := [] |}.

(** Contents of the arrays sparsekernel allocates. *)
Record scratch := { s_wr : list R; s_wi : list R; s_tr : list R; s_ti : list R; s_ji : list cplx; s_jo : list cplx }.

(** The first lines of both process functions, Chromagram.cpp:126-130, 157-161. *)
Definition generate (o : chroma) (s : scratch) : res chroma :=
  if g_generated o then OK o else
  q <- sparsekernel (g_cq o) (s_wr s) (s_wi s) (s_tr s) (s_ti s) (s_ji s) (s_jo s) ;;
  OK {| g_bpo := g_bpo o; g_norm := g_norm o; g_data := g_data o; g_cq := q; g_generated := true;
        g_uk := g_uk o; g_size := g_size o; g_hop := g_hop o; g_fft := g_fft o;
        g_re := g_re o; g_im := g_im o; g_cqre := g_cqre o; g_cqim := g_cqim o; g_window := g_window o; g_buf := g_buf o |}.

(** kabs, Chromagram.cpp:102-106. *)
Definition kabs (x y : R) : R := sqrt (x * x + y * y).

(** process(real, imag), Chromagram.cpp:155-184.  Returned: the array m_chromadata. *)
Definition process_freq (o : chroma) (s : scratch) (re im : list R) : res (chroma * list R) :=
  o <- generate o s ;;
  d <- for_up 0 (g_bpo o) (fun i d => aset d i 0%R) (g_data o) ;;
  '(cre, cim) <- cq_process (g_cq o) re im (g_cqre o) (g_cqim o) ;;
  let octaves := Z.quot (g_uk o) (g_bpo o) in
  d <- for_up 0 octaves (fun octave d =>
    let first := octave * g_bpo o in
    for_up 0 (g_bpo o) (fun i d =>
      x <- aget cre (first + i) ;;
      y <- aget cim (first + i) ;;
      v <- aget d i ;;
      aset d i (v + kabs x y)%R) d) d ;;
  d <- normalise d (g_bpo o) (g_norm o) ;;
  OK ({| g_bpo := g_bpo o; g_norm := g_norm o; g_data := d; g_cq := g_cq o; g_generated := g_generated o;
         g_uk := g_uk o; g_size := g_size o; g_hop := g_hop o; g_fft := g_fft o;
         g_re := g_re o; g_im := g_im o; g_cqre := cre; g_cqim := cim; g_window := g_window o; g_buf := g_buf o |}, d).

(** process(data), Chromagram.cpp:124-153; [jbuf]: the contents of new double[m_frameSize]. *)
Definition process_time (o : chroma) (s : scratch) (jbuf data : list R) : res (chroma * list R) :=
  o <- generate o s ;;
  '(w, buf) <- (match g_window o with
                | Some w => OK (w, g_buf o)
                | None => w <- encache Hamming (g_size o) ;; OK (w, jbuf)
                end) ;;
  buf <- for_up 0 (g_size o) (fun i buf => v <- aget data i ;; aset buf i v) buf ;;
  buf <- cut_in_place w (g_size o) buf ;;
  buf <- swap_halves (Z.quot (g_size o) 2) buf ;;
  '(t, re, im) <- fftreal_forward (g_fft o) buf (g_re o) (g_im o) ;;
  process_freq {| g_bpo := g_bpo o; g_norm := g_norm o; g_data := g_data o; g_cq := g_cq o; g_generated := g_generated o;
    g_uk := g_uk o; g_size := g_size o; g_hop := g_hop o; g_fft := t;
    g_re := re; g_im := im; g_cqre := g_cqre o; g_cqim := g_cqim o; g_window := Some w; g_buf := buf |} s re im.
