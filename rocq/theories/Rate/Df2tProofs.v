(** Generic transposed-form filter over lists, and its relation to the specification. *)
From Coq Require Import List ZArith Lia Ring.
From Verif.Base Require Import Imp Sums.
From Verif.Rate Require Import Df2tSpec.
Import ListNotations.
Open Scope Z_scope.

Section Gen.
  Context {T : Type} (zero : T) (add sub mul : T -> T -> T).
  Notation Zn := (zn zero).
  Notation contribution := (contribution zero add sub mul).
  Notation iir_response := (iir_response zero add sub mul).

  (** New delay values. *)
  Fixpoint delays (cs : list (T * T)) (o : list T) (x y : T) : list T :=
    match cs, o with
    | [(b, a)], _ => [sub (mul x b) (mul y a)]
    | (b, a) :: rest, _ :: ((o2 :: _) as os) =>
        add (sub (mul x b) (mul y a)) o2 :: delays rest os x y
    | _, _ => []
    end.
  Definition gstep (b0 : T) cs (o : list T) (x : T) : list T * T :=
    let y := add (mul x b0) (hd zero o) in (delays cs o x y, y).
  Fixpoint grun b0 cs (o : list T) (xs : list T) : list T * list T :=
    match xs with
    | [] => (o, [])
    | x :: r => let '(o1, y) := gstep b0 cs o x in
                let '(o2, ys) := grun b0 cs o1 r in (o2, y :: ys)
    end.

  Lemma grun_app b0 cs o xs xs' :
    grun b0 cs o (xs ++ xs') =
    let '(o1, ys) := grun b0 cs o xs in let '(o2, ys') := grun b0 cs o1 xs' in (o2, ys ++ ys').
  Proof.
    revert o; induction xs as [|x xs IH]; intros o; cbn [app grun].
    - now destruct (grun b0 cs o xs').
    - destruct (gstep b0 cs o x) as [o1 y]. rewrite IH.
      destruct (grun b0 cs o1 xs) as [o2 ys]. destruct (grun b0 cs o2 xs') as [o3 ys']. reflexivity.
  Qed.

  Lemma grun_len b0 cs o xs : zlen (snd (grun b0 cs o xs)) = zlen xs.
  Proof.
    revert o; induction xs as [|x xs IH]; intros o; cbn [grun]; [reflexivity|].
    destruct (gstep b0 cs o x) as [o1 y]. specialize (IH o1).
    destruct (grun b0 cs o1 xs) as [o2 ys]. cbn [snd] in *. zl. lia.
  Qed.

  Lemma gstep_len b0 cs o x : cs <> [] -> length o = length cs ->
    length (fst (gstep b0 cs o x)) = length cs.
  Proof.
    unfold gstep. cbn [fst]. generalize (add (mul x b0) (hd zero o)) as y. revert o.
    induction cs as [|[b a] cs IH]; intros o y Hc Hl; [congruence|].
    destruct cs as [|c cs]; [destruct o; reflexivity|].
    destruct o as [|o1 [|o2 os]]; try discriminate.
    change (S (length (delays (c :: cs) (o2 :: os) x y)) = S (length (c :: cs))). f_equal. apply IH; [congruence|].
    cbn in *; lia.
  Qed.

  (** Delay line contents at time t. *)
  Fixpoint line (cs : list (T * T)) (x y : list T) (t : Z) : list T :=
    match cs with
    | [] => []
    | _ :: rest => contribution cs x y t :: line rest x y t
    end.

  Lemma contribution_ext cs x y x' y' t :
    (forall i, 0 <= i <= t -> Zn x i = Zn x' i /\ Zn y i = Zn y' i) ->
    contribution cs x y t = contribution cs x' y' t.
  Proof.
    revert t. induction cs as [|[b a] cs IH]; intros t H; cbn [Df2tSpec.contribution]; [reflexivity|].
    destruct (Z.ltb_spec t 0); [reflexivity|].
    destruct (H t ltac:(lia)) as [-> ->]. destruct cs as [|c cs]; [reflexivity|].
    f_equal. apply IH. intros i Hi. apply H. lia.
  Qed.

  Lemma line_ext cs x y x' y' t :
    (forall i, 0 <= i <= t -> Zn x i = Zn x' i /\ Zn y i = Zn y' i) ->
    line cs x y t = line cs x' y' t.
  Proof.
    induction cs as [|c cs IH]; intros H; cbn [line]; [reflexivity|].
    rewrite (contribution_ext _ x y x' y') by exact H. now rewrite IH.
  Qed.

  Lemma delays_line cs x y t : 0 <= t ->
    delays cs (line cs x y (t - 1)) (Zn x t) (Zn y t) = line cs x y t.
  Proof.
    intros Ht. induction cs as [|[b a] cs IH]; [reflexivity|].
    destruct cs as [|c cs].
    - cbn. now destruct (Z.ltb_spec t 0); [lia|].
    - change (delays ((b, a) :: c :: cs) (line ((b, a) :: c :: cs) x y (t - 1)) (Zn x t) (Zn y t))
        with (add (sub (mul (Zn x t) b) (mul (Zn y t) a)) (contribution (c :: cs) x y (t - 1))
              :: delays (c :: cs) (line (c :: cs) x y (t - 1)) (Zn x t) (Zn y t)).
      rewrite IH. change (line ((b, a) :: c :: cs) x y t)
        with (contribution ((b, a) :: c :: cs) x y t :: line (c :: cs) x y t).
      f_equal. cbn [Df2tSpec.contribution]. destruct (Z.ltb_spec t 0); [lia|]. reflexivity.
  Qed.

  Lemma hd_line c cs x y t : hd zero (line (c :: cs) x y t) = contribution (c :: cs) x y t.
  Proof. reflexivity. Qed.

  Lemma line_start cs x y : line cs x y (-1) = repeat zero (length cs).
  Proof.
    induction cs as [|[b a] cs IH]; [reflexivity|]. cbn [line]. rewrite IH. reflexivity.
  Qed.

  Lemma grun_response b0 cs xs : cs <> [] ->
    let '(o, ys) := grun b0 cs (repeat zero (length cs)) xs in
    iir_response b0 cs xs ys /\ o = line cs xs ys (zlen xs - 1).
  Proof.
    intros Hc. induction xs as [|x xs IH] using rev_ind.
    - cbn [grun]. split; [split; [reflexivity|intros t Ht; zl; lia]|]. symmetry. apply line_start.
    - rewrite grun_app. destruct (grun b0 cs (repeat zero (length cs)) xs) as [o ys].
      destruct IH as [[L R] ->]. cbn [grun]. unfold gstep.
      set (y := add _ _). pose proof (zlen_nonneg xs).
      assert (A : forall i, 0 <= i <= zlen xs - 1 ->
                Zn xs i = Zn (xs ++ [x]) i /\ Zn ys i = Zn (ys ++ [y]) i).
      { intros i Hi. rewrite !zn_app. zcase. auto. }
      assert (Ey : y = Zn (ys ++ [y]) (zlen xs)) by (rewrite zn_app, L; zcase; now rewrite Z.sub_diag).
      assert (Ex : x = Zn (xs ++ [x]) (zlen xs)) by (rewrite zn_app; zcase; now rewrite Z.sub_diag).
      split.
      + split; [zl; lia|]. intros t Ht. zl.
        destruct (Z.eq_dec t (zlen xs)) as [->|].
        * rewrite <- Ey, <- Ex. unfold y at 1. destruct cs as [|c cs]; [congruence|].
          rewrite hd_line. f_equal. now apply contribution_ext.
        * destruct (A t ltac:(lia)) as [<- <-]. rewrite R by lia. f_equal.
          apply contribution_ext. intros i Hi. apply A. lia.
      + rewrite (line_ext cs xs ys (xs ++ [x]) (ys ++ [y])) by exact A.
        pose proof (delays_line cs (xs ++ [x]) (ys ++ [y]) (zlen xs) ltac:(lia)) as D.
        rewrite <- Ex, <- Ey in D. rewrite D. f_equal. zl. lia.
  Qed.

  Lemma response_unique b0 cs x y y' : iir_response b0 cs x y -> iir_response b0 cs x y' -> y = y'.
  Proof.
    intros [L R] [L' R']. apply (zn_ext zero); [lia|].
    assert (H : forall n, 0 <= n -> forall i, 0 <= i < n -> i < zlen x -> Zn y i = Zn y' i).
    { intros n Hn. pattern n. apply natlike_ind; [lia| |exact Hn]. clear n Hn.
      intros n Hn IH i Hi Hx. rewrite R, R' by lia. f_equal. apply contribution_ext.
      intros j Hj. split; auto. apply IH; lia. }
    intros i Hi. apply (H (i + 1)); lia.
  Qed.

  Lemma response_prefix b0 cs x x' y y' :
    iir_response b0 cs (x ++ x') (y ++ y') -> zlen y = zlen x -> iir_response b0 cs x y.
  Proof.
    intros [L R] H. split; auto. intros t Ht. pose proof (zlen_nonneg x').
    specialize (R t ltac:(zl; lia)). rewrite !zn_app in R. rewrite H in R.
    destruct (Z.ltb_spec t (zlen x)); [|lia]. rewrite R. f_equal. apply contribution_ext.
    intros i Hi. rewrite !zn_app, H. zcase. auto.
  Qed.
End Gen.

(** Over a commutative ring the response satisfies the textbook difference equation. *)
Section Ring.
  Context {T : Type} (zero one : T) (add sub mul : T -> T -> T) (opp : T -> T).
  Hypothesis RT : ring_theory zero one add mul sub opp (@eq T).
  Add Ring Tring : RT.

  Lemma contribution_sum cs x y t :
    zlen y = zlen x ->
    contribution zero add sub mul cs x y t =
    sub (fsum zero add (zlen cs) (fun i => mul (fst (zn (zero, zero) cs i)) (zn zero x (t - i))))
        (fsum zero add (zlen cs) (fun i => mul (snd (zn (zero, zero) cs i)) (zn zero y (t - i)))).
  Proof.
    intros HL. revert t. induction cs as [|[b a] cs IH]; intros t.
    - cbn [contribution]. destruct (t <? 0); cbn; ring.
    - assert (SC : forall g, fsum zero add (zlen cs + 1) g =
          add (g 0) (fsum zero add (zlen cs) (fun i => g (i + 1)))).
      { intros g. generalize (zlen_nonneg cs). generalize (zlen cs). intros n Hn. pattern n. apply natlike_ind; [| |exact Hn].
        - rewrite fsum_S by lia. rewrite !fsum_0 by lia. ring.
        - intros k Hk IH'. unfold Z.succ. rewrite fsum_S by lia. rewrite IH'.
          rewrite (fsum_S zero add k) by lia. ring. }
      rewrite !zlen_cons, !SC.
      rewrite (fsum_ext zero add _ (fun i => mul (fst (zn (zero, zero) ((b, a) :: cs) (i + 1))) _)
        (fun i => mul (fst (zn (zero, zero) cs i)) (zn zero x (t - 1 - i)))).
      2: { intros i Hi. rewrite zn_cons. zcase. f_equal; [do 2 f_equal; lia|f_equal; lia]. }
      rewrite (fsum_ext zero add _ (fun i => mul (snd (zn (zero, zero) ((b, a) :: cs) (i + 1))) _)
        (fun i => mul (snd (zn (zero, zero) cs i)) (zn zero y (t - 1 - i)))).
      2: { intros i Hi. rewrite zn_cons. zcase. f_equal; [do 2 f_equal; lia|f_equal; lia]. }
      rewrite Z.sub_0_r. change (zn (zero, zero) ((b, a) :: cs) 0) with (b, a). cbn [fst snd].
      cbn [contribution].
      destruct (Z.ltb_spec t 0).
      + assert (Z0 : forall c (w : list T), fsum zero add (zlen cs)
            (fun i => mul (c i) (zn zero w (t - 1 - i))) = zero).
        { intros c w. rewrite (fsum_ext zero add _ _ (fun _ => zero)).
          - generalize (zlen_nonneg cs). generalize (zlen cs). intros n Hn. pattern n.
            apply natlike_ind; [reflexivity| |exact Hn]. intros k Hk E. unfold Z.succ.
            rewrite fsum_S, E by lia. ring.
          - intros i Hi. rewrite zn_out by lia. ring. }
        rewrite !(Z0 (fun i => _)). rewrite !zn_out by lia. ring.
      + destruct cs as [|c cs].
        * cbn. ring.
        * rewrite IH. ring.
  Qed.

  (** y[t] = b_0 x[t] + sum b_k x[t-k] - sum a_k y[t-k]. *)
  Theorem response_difference b0 cs x y :
    iir_response zero add sub mul b0 cs x y ->
    forall t, 0 <= t < zlen x ->
      zn zero y t =
      sub (add (mul b0 (zn zero x t))
               (fsum zero add (zlen cs) (fun i => mul (fst (zn (zero, zero) cs i)) (zn zero x (t - 1 - i)))))
          (fsum zero add (zlen cs) (fun i => mul (snd (zn (zero, zero) cs i)) (zn zero y (t - 1 - i)))).
  Proof.
    intros [L R] t Ht. rewrite R by auto. rewrite contribution_sum by auto. ring.
  Qed.
End Ring.
