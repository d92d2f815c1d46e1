(** BeatSpectrum in any arithmetic: what it computes, operation by operation. *)
From Coq Require Import ZArith List Bool Lia.
From Verif.Base Require Import Imp Sums Arith Loops Tables.
From Verif.Measures Require Import MeasModel.
From Verif.Rhythm Require Import BeatSpecModel BeatSpecProofs.
Import ListNotations.
Open Scope Z_scope.

Section Any.
  Context {T : Type} (A : arith T) (fabs : T -> T) (sm : T).
  Notation zero := (a_of A 0).

  Definition dist_of (v w : list T) : T := match cosine A fabs sm v w with OK d => d | _ => zero end.
  Lemma dist_ok v w : cosine A fabs sm v w = OK (dist_of v w).
  Proof. unfold dist_of. destruct (cosine_total A fabs sm v w) as [d ->]. reflexivity. Qed.

  Context (m : list (list T)).
  Notation sz := (zlen m / 2).
  Notation part i k := (fsum zero (a_add A) i (fun q => dist_of (zn [] m q) (zn [] m (q + (k + 1))))).

  (** Each value is the sum of the distances at its lag in the order of the frames, divided by one number or by none. *)
  Theorem spectrum_form : exists f : T -> T, beat_spectrum A fabs sm m = OK (ztab sz (fun k => f (part sz k))).
  Proof.
    assert (N0 : 0 <= sz) by (apply Z.div_pos; [apply zlen_nonneg|lia]). assert (N2 : 2 * sz <= zlen m) by (apply Z.mul_div_le; lia).
    unfold beat_spectrum.
    rewrite (for_up_tab sz _ (fun _ => zero)) by (try rewrite zlen_repeat; intros; auto; lia).
    rewrite skipn_zlen by (rewrite zlen_repeat; lia). rewrite app_nil_r. cbn [bind].
    match goal with |- context [bind (for_up 0 sz ?f ?s) _] => assert (E1 : for_up 0 sz f s = OK (ztab sz (fun k => part sz k))) end.
    { pose (St := fun i => ztab sz (fun k => part i k)).
      change (ztab sz (fun k => part sz k)) with (St sz).
      replace (ztab sz (fun _ => zero)) with (St 0) by (unfold St; apply ztab_ext; intros; now rewrite fsum_0 by lia).
      apply (for_up_path St 0 sz); [lia|]. intros i Hi.
      pose (Q := fun j => (ztab sz (fun k => if k <? j - (i + 1) then part (i + 1) k else part i k), j - (i + 1))).
      replace (St i, 0) with (Q (i + 1)).
      2: { unfold Q, St. f_equal; [|lia]. apply ztab_ext. intros k Hk. destruct (Z.ltb_spec k (i + 1 - (i + 1))); [lia|]. reflexivity. }
      rewrite (for_up_path Q (i + 1) (i + sz + 1)); [|lia|].
      - unfold Q. cbn [bind]. f_equal. unfold St. apply ztab_ext. intros k Hk. destruct (Z.ltb_spec k (i + sz + 1 - (i + 1))); [reflexivity|lia].
      - intros j Hj. unfold Q. rewrite (aget_OK []) by lia. cbn [bind]. rewrite (aget_OK []) by lia. cbn [bind]. rewrite dist_ok. cbn [bind].
        rewrite aget_tab by lia. cbn [bind]. rewrite aset_tab by lia. cbn [bind]. f_equal. f_equal; [|lia].
        apply ztab_ext. intros k Hk. unfold set1. destruct (Z.eqb_spec k (j - (i + 1))) as [->|Ne].
        + rewrite Z.ltb_irrefl. destruct (Z.ltb_spec (j - (i + 1)) (j + 1 - (i + 1))); [|lia]. rewrite fsum_S by lia.
          replace (i + (j - (i + 1) + 1)) with j by lia. reflexivity.
        + destruct (Z.ltb_spec k (j - (i + 1))), (Z.ltb_spec k (j + 1 - (i + 1))); try lia; reflexivity. }
    rewrite E1. clear E1. cbn [bind].
    match goal with |- context [bind (for_up 0 sz ?f ?s) _] => destruct (for_up_inv (fun _ _ => True) 0 sz f s) as (mx & -> & _) end; auto.
    { intros i x Hi _. rewrite aget_tab by lia. cbn [bind]. eauto. }
    cbn [bind]. destruct (a_lt A zero mx).
    - exists (fun x => a_div A x mx).
      rewrite (for_up_tab sz _ (fun k => a_div A (part sz k) mx)).
      + rewrite skipn_zlen by (zl; lia). now rewrite app_nil_r.
      + zl; lia.
      + intros i s Hi L V _. rewrite (aget_OK zero) by (rewrite L; zl; lia). cbn [bind]. rewrite V by lia. now rewrite zn_ztab by lia.
    - exists (fun x => x). reflexivity.
  Qed.

  (** Frames which repeat: values which repeat, bit for bit. *)
  Theorem spectrum_periodic_any p v : beat_spectrum A fabs sm m = OK v -> 1 <= p ->
    (forall i, 0 <= i -> i + p < zlen m -> zn [] m (i + p) = zn [] m i) ->
    forall d k, 0 <= k -> k + p < sz -> zn d v (k + p) = zn d v k.
  Proof.
    intros E Hp HP d k Hk Hs. destruct spectrum_form as [f F]. rewrite F in E. injection E as <-.
    assert (N2 : 2 * sz <= zlen m) by (apply Z.mul_div_le; lia).
    rewrite !zn_ztab by lia. f_equal. apply fsum_ext. intros i Hi. f_equal.
    replace (i + (k + p + 1)) with (i + (k + 1) + p) by lia. apply HP; lia.
  Qed.
End Any.
