(** Model of hmm/hmm.c, continued: initialisation, training and decoding. *)
From Coq Require Import List ZArith Reals Lia Bool.
From Verif.Base Require Import Imp RealOps Matrix.
From Verif.Base Require Xreal.
From Verif.Lapack Require LapackModel.
From Verif.Hmm Require Import HmmModel.
Import ListNotations.
Open Scope Z_scope.

(** hmm.h:19-26: model_t. *)
Record model_t := Model { mN : Z; mL : Z; mp0 : list R; ma : list (list R); mmu : list (list R); mcov : list (list R) }.

(** Logarithms of probabilities: a real number, or None for minus infinity. *)
Definition xlog (v : R) : option R := if Rleb v 0 then None else Some (ln v).
Definition xadd (u v : option R) : option R :=
  match u, v with Some p, Some q => Some (p + q)%R | _, _ => None end.
Definition xgtb (u v : option R) : bool :=
  match u, v with Some p, Some q => Rltb q p | Some _, None => true | None, _ => false end.

(** The same among infinities and NaN. *)
Definition flog (v : R) : Xreal.xr :=
  if Rltb 0 v then Xreal.Fin (ln v) else if Reqb v 0 then Xreal.NInf else Xreal.NaN.

Section Hmm.
  (** Indeterminate memory contents; the safe minimum of LAPACK (see Lapack/LapackModel.v). *)
  Variables junk sfmin : R.
  (** The successive values of rand() / (double) RAND_MAX. *)
  Variable rnd : Z -> R.

  Definition new1 (n : Z) : list R := repeat junk (Z.to_nat n).
  Definition new2 (n k : Z) : list (list R) := repeat (new1 k) (Z.to_nat n).

  (** hmm_init, hmm.c:46-124. *)
  Definition hmm_init (x : list (list R)) (T L N : Z) : res model_t :=
    gm <- for_up 0 L (fun d gm => s <- sum_up T (fun t => mget x t d) 0 ;; aset gm d (s / IZR T)%R) (new1 L) ;;
    cov <- for_up 0 L (fun d cov =>
      row <- aget cov d ;; row <- for_up 0 L (fun e row => aset row e 0%R) row ;;
      z <- aget row d ;;
      s <- sum_up T (fun t => v <- mget x t d ;; m <- aget gm d ;; OK ((v - m) * (v - m))%R) z ;;
      row <- aset row d (s / IZR (T - 1))%R ;;
      aset cov d row) (new2 L L) ;;
    ' (mu, k) <- for_up 0 N (fun i '(mu, k) =>
      row <- aget mu i ;;
      ' (row, k) <- for_up 0 L (fun d '(row, k) =>
        m <- aget gm d ;; c <- mget cov d d ;;
        row <- aset row d (m + (1 / 2 * rnd k - 1 / 4) * sqrt c)%R ;; OK (row, k + 1)) (row, k) ;;
      mu <- aset mu i row ;; OK (mu, k)) (new2 N L, 0) ;;
    ' (p0, a, s, _) <- for_up 0 N (fun i '(p0, a, s, k) =>
      let p := (1 + rnd k)%R in
      p0 <- aset p0 i p ;;
      row <- aget a i ;;
      ' (row, ss, k) <- for_up 0 N (fun j '(row, ss, k) =>
        let v := (1 + rnd k)%R in row <- aset row j v ;; OK (row, (ss + v)%R, k + 1)) (row, 0%R, k + 1) ;;
      row <- map_row N (fun v => v / ss)%R row ;;
      a <- aset a i row ;;
      OK (p0, a, (s + p)%R, k)) (new1 N, new2 N N, 0%R, k) ;;
    p0 <- map_row N (fun v => v / s)%R p0 ;;
    OK (Model N L p0 a mu cov).

  (** hmm.c:181-185, 469-473: icov is allocated, and filled by invert.  hmm_train keeps it for all iterations; that
      what it held before makes no difference is [invert_overwrites], Lapack/LapackResults.v. *)
  Definition invert_cov (L : Z) (cov : list (list R)) : res (list (list R) * R) :=
    LapackModel.invert sfmin junk cov L (new2 L L).

  (** hmm.c:192-196: b[t][i] = f(loggauss(...)); the work arrays are fully overwritten by each call. *)
  Definition obs_probs (f : R -> R) (T N L : Z) (x mu icov : list (list R)) (det : R) (b : list (list R)) : res (list (list R)) :=
    for_up 0 T (fun t b =>
      row <- aget b t ;;
      row <- for_up 0 N (fun i row =>
        xt <- aget x t ;; m <- aget mu i ;;
        v <- loggauss xt L m icov det (new1 L) (new1 L) ;; aset row i (f v)) row ;;
      aset b t row) b.

  (** hmm_train, hmm.c:143-232.  The variables of the loop.  Over the reals the likelihood is a number unless
      the determinant is zero.  Then log(detcov) is minus infinity, every density b[t][i] plus infinity, c[0] zero,
      alpha[0][i] NaN, and with two observations or more so is the likelihood ([forward_singular], HmmSingular.v): foundnan
      is set and the model left.  A zero determinant with a single observation is not modelled. *)
  Record train_state := Train { s_iter : Z; s_model : model_t; s_gamma : list (list R); s_xi : list (list (list R));
    s_ll : R; s_ll1 : R; s_ll2 : R; s_nan : bool }.
  Definition train_on (s : train_state) : bool :=
    (s_iter s <? 50) && negb (s_nan s) && negb ((1 <? s_iter s) && Rltb (s_ll s - s_ll1 s) (1 / 10000 * (s_ll1 s - s_ll2 s))).
  Definition train_step (x : list (list R)) (T : Z) (s : train_state) : res train_state :=
    let iter := s_iter s + 1 in
    let m := s_model s in let N := mN m in let L := mL m in
    ' (icov, det) <- invert_cov L (mcov m) ;;
    if Reqb det 0 then
      if T <? 2 then UB else OK (Train iter m (s_gamma s) (s_xi s) (s_ll s) (s_ll1 s) (s_ll2 s) true)
    else
    b <- obs_probs exp T N L x (mmu m) icov det (new2 T N) ;;
    ' (xi, gamma, (ll, ll1, ll2)) <- forward_backwards junk (s_xi s) (s_gamma s) (s_ll s) (s_ll1 s) (s_ll2 s) iter N T (mp0 m) (ma m) b ;;
    ' (p0, a, mu, cov) <- baum_welch junk (mp0 m) (ma m) (mmu m) (mcov m) N T L x xi gamma ;;
    OK (Train iter (Model N L p0 a mu cov) gamma xi ll ll1 ll2 false).
  Definition hmm_train (x : list (list R)) (T : Z) (m : model_t) : res model_t :=
    let N := mN m in
    s <- while 51 train_on (train_step x T)
      (Train 0 m (new2 T N) (repeat (new2 N N) (Z.to_nat T)) junk junk junk false) ;;
    OK (s_model s).

  (** viterbi_decode, hmm.c:454-553.  log 0 is minus infinity: the scores are extended reals.  With a zero determinant
      every logb[t][i] is plus infinity. *)
  Definition viterbi_decode (junkZ : Z) (x : list (list R)) (T : Z) (m : model_t) (q : list Z) : res (list Z) :=
    let N := mN m in let L := mL m in
    ' (icov, det) <- invert_cov L (mcov m) ;;
    if Reqb det 0 then
      viterbi_core flog Xreal.xadd (fun u v => Xreal.xlt v u) (Xreal.Fin (-1000000)) (Xreal.Fin junk) junkZ N T (mp0 m) (ma m)
        (repeat (repeat Xreal.PInf (Z.to_nat N)) (Z.to_nat T)) q
    else
    logb <- obs_probs (fun v => v) T N L x (mmu m) icov det (new2 T N) ;;
    viterbi_core xlog xadd xgtb (Some (-1000000)%R) (Some junk) junkZ N T (mp0 m) (ma m) (map (map (@Some R)) logb) q.
End Hmm.
