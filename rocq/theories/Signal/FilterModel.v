(** Model of dsp/signalconditioning/Filter.{h,cpp}, over an arbitrary sample type. *)
From Coq Require Import List ZArith Lia Bool.
From Verif.Base Require Import Imp.
Import ListNotations.
Open Scope Z_scope.

Section Filter.
  Context {T : Type} (zero : T) (add sub mul : T -> T -> T).

  (** Members of class Filter, Filter.h:54-63. *)
  Record filter := mkFilter {
    f_order : Z; f_sz : Z; f_a : list T; f_b : list T;
    f_bufa : list T; f_bufb : list T;
    f_offa : Z; f_offb : Z; f_offmax : Z; f_fir : bool }.

  (** Filter::Filter, Filter.cpp:21-58.  The two [throw logic_error] are [Throw];
      [resize] value-initialises with 0.0. *)
  Definition filter_new (a b : list T) : res filter :=
    fir <- (match a with
            | [] => match b with [] => Throw | _ => OK true end
            | _ => if zlen a =? zlen b then OK false else Throw
            end) ;;
    let sz := zlen b in
    let order := sz - 1 in
    let offmax := 20 in
    OK {| f_order := order; f_sz := sz; f_a := a; f_b := b;
          f_bufa := if fir then [] else repeat zero (Z.to_nat (order + offmax));
          f_bufb := repeat zero (Z.to_nat (sz + offmax));
          f_offa := offmax; f_offb := offmax; f_offmax := offmax; f_fir := fir |}.

  (** Filter::reset, Filter.cpp:64-75. *)
  Definition filter_reset (f : filter) : filter :=
    {| f_order := f_order f; f_sz := f_sz f; f_a := f_a f; f_b := f_b f;
       f_bufa := if f_fir f then f_bufa f else repeat zero (length (f_bufa f));
       f_bufb := repeat zero (length (f_bufb f));
       f_offa := f_offmax f; f_offb := f_offmax f; f_offmax := f_offmax f; f_fir := f_fir f |}.

  (** The "move the buffer back to the end" loops, Filter.cpp:87-89 (hi = m_sz - 2) and
      Filter.cpp:110-112 (hi = m_order - 2):
      [for (int i = hi; i >= 0; --i) buf[i + m_offmax + 1] = buf[i];] *)
  Definition shift_back (offmax hi : Z) (buf : list T) : res (list T) :=
    for_down hi 0 (fun i buf => v <- aget buf i ;; aset buf (i + offmax + 1) v) buf.

  (** Make room for one value at the front, Filter.cpp:84-91 and 107-114:
      either decrement the offset or shift the buffer back. *)
  Definition make_room (offmax hi off : Z) (buf : list T) : res (Z * list T) :=
    if 0 <? off then OK (off - 1, buf)
    else buf' <- shift_back offmax hi buf ;; OK (offmax, buf').

  (** One iteration of the sample loop, Filter.cpp:83-119: consumes [in[s] = x], yields the
      new state and [outval]. *)
  Definition filter_step (f : filter) (x : T) : res (filter * T) :=
    '(offb, bufb) <- make_room (f_offmax f) (f_sz f - 2) (f_offb f) (f_bufb f) ;;
    bufb <- aset bufb offb x ;;
    b_sum <- for_up 0 (f_sz f) (fun i acc =>
               c <- aget (f_b f) i ;; v <- aget bufb (i + offb) ;; OK (add acc (mul c v))) zero ;;
    if f_fir f then
      OK ({| f_order := f_order f; f_sz := f_sz f; f_a := f_a f; f_b := f_b f;
             f_bufa := f_bufa f; f_bufb := bufb; f_offa := f_offa f; f_offb := offb;
             f_offmax := f_offmax f; f_fir := f_fir f |}, b_sum)
    else
      a_sum <- for_up 0 (f_order f) (fun i acc =>
                 c <- aget (f_a f) (i + 1) ;; v <- aget (f_bufa f) (i + f_offa f) ;;
                 OK (add acc (mul c v))) zero ;;
      let outval := sub b_sum a_sum in
      '(offa, bufa) <- make_room (f_offmax f) (f_order f - 2) (f_offa f) (f_bufa f) ;;
      bufa <- aset bufa offa outval ;;
      OK ({| f_order := f_order f; f_sz := f_sz f; f_a := f_a f; f_b := f_b f;
             f_bufa := bufa; f_bufb := bufb; f_offa := offa; f_offb := offb;
             f_offmax := f_offmax f; f_fir := f_fir f |}, outval).

  (** Filter::process, Filter.cpp:77-121, for non-overlapping [inp] and [out]
      (both are declared restrict). *)
  Definition filter_process (f : filter) (inp out : list T) (n : Z) : res (filter * list T) :=
    for_up 0 n (fun s '(f, out) =>
      x <- aget inp s ;;
      '(f, outval) <- filter_step f x ;;
      out <- aset out s outval ;;
      OK (f, out)) (f, out).

  (** A client driving one filter object: each element gives the input block and the output
      buffer of one [process] call; the results are the filled output buffers. *)
  Fixpoint filter_run (f : filter) (calls : list (list T * list T)) : res (filter * list (list T)) :=
    match calls with
    | [] => OK (f, [])
    | (inp, out) :: rest =>
        '(f, out') <- filter_process f inp out (zlen inp) ;;
        '(f, outs) <- filter_run f rest ;;
        OK (f, out' :: outs)
    end.

  (** A client mixing [process] and [reset] calls. *)
  Inductive fop := FProcess (inp out : list T) | FReset.
  Fixpoint filter_ops (f : filter) (ops : list fop) : res (filter * list (list T)) :=
    match ops with
    | [] => OK (f, [])
    | FReset :: rest => filter_ops (filter_reset f) rest
    | FProcess inp out :: rest =>
        '(f, out') <- filter_process f inp out (zlen inp) ;;
        '(f, outs) <- filter_ops f rest ;;
        OK (f, out' :: outs)
    end.
End Filter.
Arguments FProcess {T} inp out.
Arguments FReset {T}.
Arguments filter : clear implicits.
