(** Reals with infinities and NaN: IEEE arithmetic without rounding, overflow and signed zeros (a zero
    divisor counts as +0). *)
From Coq Require Import List ZArith Reals Lia Lra Bool.
From Verif.Base Require Import Imp RealOps Arith.
Open Scope R_scope.

Inductive xr := Fin (r : R) | PInf | NInf | NaN.

Definition xneg (x : xr) : xr := match x with Fin r => Fin (- r) | PInf => NInf | NInf => PInf | NaN => NaN end.
Definition xadd (x y : xr) : xr :=
  match x, y with
  | Fin a, Fin b => Fin (a + b)
  | NaN, _ | _, NaN | PInf, NInf | NInf, PInf => NaN
  | PInf, _ | _, PInf => PInf
  | NInf, _ | _, NInf => NInf
  end.
Definition xsub (x y : xr) : xr := xadd x (xneg y).
(** Infinity with the sign of [r]. *)
Definition xsign (r : R) : xr := if Rltb 0 r then PInf else if Rltb r 0 then NInf else NaN.
Definition xmul (x y : xr) : xr :=
  match x, y with
  | Fin a, Fin b => Fin (a * b)
  | NaN, _ | _, NaN => NaN
  | PInf, PInf | NInf, NInf => PInf
  | PInf, NInf | NInf, PInf => NInf
  | PInf, Fin r | Fin r, PInf => xsign r
  | NInf, Fin r | Fin r, NInf => xneg (xsign r)
  end.
Definition xdiv (x y : xr) : xr :=
  match x, y with
  | Fin a, Fin b => if Reqb b 0 then xsign a else Fin (a / b)
  | NaN, _ | _, NaN => NaN
  | Fin _, _ => Fin 0
  | PInf, Fin r => if Reqb r 0 then PInf else xsign r
  | NInf, Fin r => if Reqb r 0 then NInf else xneg (xsign r)
  | _, _ => NaN
  end.
Definition xsqrt (x : xr) : xr :=
  match x with Fin r => if Rltb r 0 then NaN else Fin (sqrt r) | PInf => PInf | _ => NaN end.
Definition xlt (x y : xr) : bool :=
  match x, y with
  | NaN, _ | _, NaN => false
  | Fin a, Fin b => Rltb a b
  | NInf, NInf | PInf, _ | _, NInf => false
  | NInf, _ | _, PInf => true
  end.
Definition Xarith : arith xr := mkArith xr (fun z => Fin (IZR z)) xadd xsub xmul xdiv xsqrt xlt.

Definition xfin (x : xr) : Prop := exists r, x = Fin r.
Definition xval (x : xr) : R := match x with Fin r => r | _ => 0 end.
