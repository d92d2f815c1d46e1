(** Model of dsp/rateconversion/Resampler.cpp.

    [T] is double with arbitrary operations.  The interpolation filter (lines 77-86: product of
    a sinc and a Kaiser window) and the gain (line 300) are parameters here; the windows are
    modelled in Windows/.  Integer results of the shape [int(ceil(double(a) * b / c))] are the
    exact ceiling of the quotient, which is what double arithmetic yields while a*b < 2^53
    (Base/Dbl.v). *)
From Coq Require Import List ZArith Lia Bool.
From Verif.Base Require Import Imp.
From Verif.Maths Require Import IntModel.
Import ListNotations.
Open Scope Z_scope.

(** ceil(a / b) for b > 0. *)
Definition cdiv (a b : Z) : Z := - ((- a) / b).

Section Resampler.
  Context {T : Type} (zero : T) (add mul : T -> T -> T).

  (** Resampler.h:93-97. *)
  Record rphase := mkPhase { ph_next : Z; ph_filter : list T; ph_drop : Z }.

  (** Resampler.h:86-102. *)
  Record rsm := mkRsm { r_src : Z; r_tgt : Z; r_latency : Z; r_scale : T;
    r_phases : list rphase; r_phase : Z; r_buf : list T; r_origin : Z }.

  (** One round of the loop over phases, Resampler.cpp:179-198. *)
  Definition phase_new (filter : list T) (inS outS phase : Z) : res rphase :=
    np <- while (Z.to_nat (outS + 1)) (fun np => np <? 0) (fun np => OK (np + inS)) (phase - outS) ;;
    let np := Z.rem np inS in
    let drop := cdiv (Z.max 0 (outS - phase)) inS in
    let zip := cdiv (zlen filter - phase) inS in
    f <- for_up 0 zip (fun i f => v <- aget filter (i * inS + phase) ;; OK (f ++ [v])) [] ;;
    OK (mkPhase np f drop).

  (** initialise, Resampler.cpp:55-270, from the point where the filter is known. *)
  Definition resampler_new (source target : Z) (filter : list T) (scale : T) : res rsm :=
    let higher := Z.max source target in
    let lower := Z.min source target in
    g <- gcd_c (S (Z.to_nat higher)) lower higher ;;
    let flen := zlen filter in
    let inS := Z.quot target g in
    let outS := Z.quot source g in
    if inS <? 0 then Throw else
    phases <- for_up 0 inS (fun phase ps => p <- phase_new filter inS outS phase ;; OK (ps ++ [p])) [] ;;
    let h := flen / 2 in
    if (outS =? 0) || (inS =? 0) then UB else
    let n := cdiv (flen - h) outS in
    let phase := Z.rem (h + n * outS) inS in
    let fill := Z.quot (h + n * outS) inS in
    OK (mkRsm source target n scale phases phase (repeat zero (Z.to_nat fill)) 0).

  (** reconstructOne, Resampler.cpp:272-299. *)
  Definition reconstructOne (r : rsm) : res (T * rsm) :=
    pd <- aget (r_phases r) (r_phase r) ;;
    let n := zlen (ph_filter pd) in
    if zlen (r_buf r) <? n + r_origin r then Throw else
    v <- for_up 0 n (fun i v =>
      b <- aget (r_buf r) (r_origin r + i) ;; f <- aget (ph_filter pd) i ;;
      OK (add v (mul b f))) zero ;;
    OK (v, mkRsm (r_src r) (r_tgt r) (r_latency r) (r_scale r) (r_phases r)
             (ph_next pd) (r_buf r) (r_origin r + ph_drop pd)).

  Definition set_buf (r : rsm) (buf : list T) (origin : Z) : rsm :=
    mkRsm (r_src r) (r_tgt r) (r_latency r) (r_scale r) (r_phases r) (r_phase r) buf origin.

  (** [while (outidx < maxout && m_buffer.size() >= ...) ...], Resampler.cpp:315-319.  The loop
      guard reads the phase table, so it is written as a recursion on the remaining room. *)
  Fixpoint fill_out (room : nat) (r : rsm) (dst : list T) (outidx : Z) : res (rsm * list T * Z) :=
    match room with
    | O => OK (r, dst, outidx)
    | S k =>
        pd <- aget (r_phases r) (r_phase r) ;;
        if zlen (ph_filter pd) + r_origin r <=? zlen (r_buf r) then
          '(v, r) <- reconstructOne r ;;
          dst <- aset dst outidx (mul (r_scale r) v) ;;
          fill_out k r dst (outidx + 1)
        else OK (r, dst, outidx)
    end.

  (** process(src, dst, n), Resampler.cpp:301-331; returns the object, dst and the count. *)
  Definition resampler_process (r : rsm) (src dst : list T) (n : Z) : res (rsm * list T * Z) :=
    if (n <? 0) || (zlen src <? n) then UB else
    let r := set_buf r (r_buf r ++ firstn (Z.to_nat n) src) (r_origin r) in
    let maxout := cdiv (n * r_tgt r) (r_src r) in
    '(r, dst, outidx) <- fill_out (Z.to_nat maxout) r dst 0 ;;
    if zlen (r_buf r) <? r_origin r then Throw else
    OK (set_buf r (skipn (Z.to_nat (r_origin r)) (r_buf r)) 0, dst, outidx).

  (** process(src, n), Resampler.cpp:333-342. *)
  Definition resampler_process_vec (r : rsm) (src : list T) (n : Z) : res (rsm * list T) :=
    let maxout := cdiv (n * r_tgt r) (r_src r) in
    if maxout <? 0 then Throw else
    '(r, out, got) <- resampler_process r src (repeat zero (Z.to_nat maxout)) n ;;
    if maxout <? got then UB else
    OK (r, if got <? maxout then firstn (Z.to_nat got) out else out).

  (** A client making successive process(src, dst, n) calls with the whole of each block;
      collects dst and the count of each call. *)
  Fixpoint resampler_run (r : rsm) (calls : list (list T * list T)) : res (rsm * list (list T * Z)) :=
    match calls with
    | [] => OK (r, [])
    | (blk, out) :: rest =>
        '(r, o, k) <- resampler_process r blk out (zlen blk) ;;
        '(r, os) <- resampler_run r rest ;; OK (r, (o, k) :: os)
    end.

  (** resample, Resampler.cpp:344-406.  The second process call writes at out + gotData. *)
  Definition resample (source target : Z) (filter : list T) (scale : T) (data : list T) (n : Z) : res (list T) :=
    r <- resampler_new source target filter scale ;;
    let latency := r_latency r in
    let inputPad := cdiv (latency * source) target in
    let n1 := n + inputPad in
    let m1 := cdiv (n1 * target) source in
    let m := cdiv (n * target) source in
    if (n1 - n <? 0) || (m1 + 1 <? 0) then Throw else
    let pad := repeat zero (Z.to_nat (n1 - n)) in
    let out := repeat zero (Z.to_nat (m1 + 1)) in
    '(r, out, gotData) <- resampler_process r data out n ;;
    '(r, rest, gotPad) <- resampler_process r pad (skipn (Z.to_nat gotData) out) (zlen pad) ;;
    let out := firstn (Z.to_nat gotData) out ++ rest in
    let got := gotData + gotPad in
    let toReturn := if m <? got - latency then m else got - latency in
    if (toReturn <? 0) || (zlen out <? latency + toReturn) then UB else
    OK (firstn (Z.to_nat toReturn) (skipn (Z.to_nat latency) out)).
End Resampler.
Arguments rphase : clear implicits.
Arguments rsm : clear implicits.
