(** The radices kf_factor chooses are 4 or prime: their sum is the sum of the prime factors. *)
From Coq Require Import ZArith Lia List Bool Znumtheory.
From Verif.Base Require Import Imp RealOps Loops.
From Verif.Fft Require Import FftModel FftBfly FftWork.
Import ListNotations.
Open Scope Z_scope.

Fixpoint radix_sum (facs : list Z) : Z :=
  match facs with
  | p :: m :: rest => p + (if m =? 1 then 0 else radix_sum rest)
  | _ => 0
  end.

Lemma radix_sum_nonneg n facs : chain n facs -> 0 <= radix_sum facs.
Proof.
  revert n. induction facs as [|x|p m rest IH] using list_ind2; intros n H; cbn in *; try tauto.
  destruct H as (Hp & Hm & _ & Hc). destruct (Z.eqb_spec m 1); [lia|]. destruct Hc as [|Hc]; [lia|]. specialize (IH m Hc). lia.
Qed.

Fixpoint good_radices (facs : list Z) : Prop :=
  match facs with
  | p :: m :: rest => (p = 4 \/ prime p) /\ good_radices rest
  | _ => True
  end.

(** No divisor from 2 to b - 1. *)
Definition clean (n b : Z) : Prop := forall q, 2 <= q < b -> n mod q <> 0.
Definition trial (n fs p : Z) : Prop :=
  p = 4 \/ (2 <= p <= fs /\ (p = 2 \/ p mod 2 = 1) /\ clean n p) \/ (p = n /\ clean n (fs + 1)).

Lemma mod_divide n q : q <> 0 -> n mod q = 0 <-> (q | n).
Proof. intros. apply Z.mod_divide; auto. Qed.

Lemma trial_step n fs p : 2 <= n -> trial n fs p -> n mod p <> 0 -> trial n fs (next_p n fs p).
Proof.
  intros Hn H D. unfold next_p.
  assert (G : forall r, 2 <= r -> (r = 2 \/ r mod 2 = 1) -> clean n r -> trial n fs (if r >? fs then n else r)).
  { intros r Hr Ho Hc. destruct (Z.gtb_spec r fs).
    - right; right. split; auto. intros q Hq. apply Hc. lia.
    - right; left. splits; auto. }
  destruct H as [->|[(Hp & Ho & Hc)|[-> _]]].
  - cbn [Z.eqb Pos.eqb]. apply (G 2); [lia|auto|]. intros q Hq. lia.
  - destruct (Z.eqb_spec p 4) as [->|N4]; [destruct Ho as [|Ho]; [lia|discriminate]|].
    destruct (Z.eqb_spec p 2) as [->|N2].
    + apply (G 3); [lia|auto|]. intros q Hq. assert (q = 2) as -> by lia. exact D.
    + destruct Ho as [|Ho]; [lia|]. apply (G (p + 2)); [lia| |].
      * right. replace (p + 2) with (p + 1 * 2) by lia. now rewrite Z.mod_add by lia.
      * intros q Hq. destruct (Z.eq_dec q p) as [->|]; [exact D|]. destruct (Z.eq_dec q (p + 1)) as [->|]; [|apply Hc; lia].
        intros E. apply mod_divide in E; [|lia]. apply (Hc 2); [lia|]. apply mod_divide; [lia|].
        apply Z.divide_trans with (p + 1); auto. apply mod_divide; [lia|]. rewrite Z.add_mod, Ho by lia. reflexivity.
  - rewrite Z_mod_same_full in D. lia.
Qed.

Lemma find_p_trial n fs : 2 <= n -> forall fuel p p', trial n fs p -> find_p fuel n fs p = OK p' -> trial n fs p' /\ n mod p' = 0.
Proof.
  intros Hn. unfold find_p. induction fuel as [|k IH]; intros p p' H E; cbn in E.
  - destruct (Z.eqb_spec (n mod p) 0); [|discriminate]. injection E as <-. auto.
  - destruct (Z.eqb_spec (n mod p) 0); cbn in E; [injection E as <-; auto|]. eapply IH; [|exact E]. now apply trial_step.
Qed.

Lemma trial_prime n fs p : 2 <= n -> n < (fs + 1) * (fs + 1) -> 0 <= fs -> trial n fs p -> n mod p = 0 -> p = 4 \/ prime p.
Proof.
  intros Hn Hs Hfs H D. destruct H as [->|[(Hp & _ & Hc)|[-> Hc]]]; [auto|right..].
  - apply prime_alt. split; [lia|]. intros q Hq Hd. apply (Hc q ltac:(lia)). apply mod_divide; [lia|].
    apply Z.divide_trans with p; auto. apply mod_divide; [lia|auto].
  - apply prime_alt. split; [lia|]. intros q Hq [k Hk].
    assert (Hq' : fs < q). { destruct (Z_lt_dec fs q); auto. exfalso. apply (Hc q ltac:(lia)). apply mod_divide; [lia|]. exists k; auto. }
    assert (Hk' : fs < k). { destruct (Z_lt_dec fs k); auto. exfalso. apply (Hc k); [nia|]. apply mod_divide; [nia|]. exists q; lia. }
    nia.
Qed.

Lemma trial_next n fs p : 2 <= n -> trial n fs p -> n mod p = 0 -> 1 < n / p -> trial (n / p) fs p.
Proof.
  intros Hn H D G. assert (E : n = p * (n / p)) by (apply Z_div_exact_full_2; [destruct H as [->|[(H & _)|[-> _]]]; lia|auto]).
  destruct H as [->|[(Hp & Ho & Hc)|[-> Hc]]]; [left; auto| |].
  - right; left. split; [exact Hp|split; [exact Ho|]]. intros q Hq Hd. apply (Hc q Hq). apply mod_divide; [lia|]. apply mod_divide in Hd; [|lia].
    rewrite E. now apply Z.divide_mul_r.
  - rewrite Z_div_same_full in G; lia.
Qed.

Lemma kf_factor_loop_radices fs : 0 <= fs -> forall fuel n p buf facs, 2 <= n -> n < (fs + 1) * (fs + 1) -> trial n fs p ->
  kf_factor_loop fuel fs n p buf = OK facs -> exists l, facs = buf ++ l /\ good_radices l.
Proof.
  intros Hfs. induction fuel as [|k IH]; intros n p buf facs Hn Hs Hp E; [discriminate|]. cbn [kf_factor_loop] in E.
  destruct (find_p _ n fs p) as [p'| | |] eqn:F; try discriminate. cbn [bind] in E.
  destruct (find_p_trial n fs Hn _ _ _ Hp F) as [T D]. pose proof (trial_prime n fs p' Hn Hs Hfs T D) as P.
  destruct (_ <=? _); [|discriminate]. destruct (Z.gtb_spec (n / p') 1).
  - assert (P1 : 1 < p') by (destruct P as [->|P]; [lia|]; apply prime_alt in P; destruct P; auto).
    assert (n / p' < n) by (apply Z.div_lt; lia).
    destruct (IH (n / p') p' (buf ++ [p'; n / p']) facs) as (l & -> & Hl); auto; try lia.
    + now apply trial_next.
    + exists (p' :: n / p' :: l). split; [now rewrite <- app_assoc|]. cbn. auto.
  - injection E as <-. exists [p'; n / p']. split; auto. cbn. auto.
Qed.

Lemma kf_factor_radices n facs : 2 <= n -> kf_factor n = OK facs -> good_radices facs.
Proof.
  intros Hn E. unfold kf_factor in E. pose proof (Z.sqrt_spec n ltac:(lia)) as S.
  eapply kf_factor_loop_radices in E; [|apply Z.sqrt_nonneg|exact Hn|exact (proj2 S)|left; reflexivity].
  destruct E as (l & -> & Hl). exact Hl.
Qed.

(** *** Prime factorisations *)
Definition prod (ps : list Z) : Z := fold_right Z.mul 1 ps.
Definition total (ps : list Z) : Z := fold_right Z.add 0 ps.

Lemma prime_in p ps : prime p -> Forall prime ps -> (p | prod ps) -> exists a b, ps = a ++ p :: b.
Proof.
  intros Hp. induction 1 as [|q ps Hq Hps IH]; intros D.
  - cbn in D. apply prime_alt in Hp. destruct Hp as [Hp _]. apply Z.divide_1_r in D. lia.
  - cbn in D. apply prime_mult in D; auto. destruct D as [D|D].
    + apply prime_div_prime in D; auto. subst q. exists [], ps. reflexivity.
    + destruct (IH D) as (a & b & ->). exists (q :: a), b. reflexivity.
Qed.
Lemma prod_mid p a b : prod (a ++ p :: b) = p * prod (a ++ b).
Proof. unfold prod. induction a as [|x a IH]; cbn in *; [reflexivity|]. rewrite IH. ring. Qed.
Lemma total_mid p a b : total (a ++ p :: b) = p + total (a ++ b).
Proof. unfold total. induction a as [|x a IH]; cbn in *; [reflexivity|]. rewrite IH. ring. Qed.
Lemma forall_mid {A} (P : A -> Prop) p a b : Forall P (a ++ p :: b) -> Forall P (a ++ b).
Proof. rewrite !Forall_app. intros [H1 H2]. inversion H2; auto. Qed.
Lemma prime_ge2 p : prime p -> 2 <= p.
Proof. intros H. apply prime_alt in H. destruct H. lia. Qed.
Lemma prod_1 ps : Forall prime ps -> prod ps = 1 -> ps = [].
Proof.
  intros H E. destruct H as [|p ps Hp Hps]; auto. cbn in E. pose proof (prime_ge2 p Hp).
  assert (p = 1); [|lia]. destruct (Z.mul_eq_1 p _ E); lia.
Qed.
(** A prime can be taken out of a factorisation. *)
Lemma take_prime p m ps : prime p -> Forall prime ps -> prod ps = p * m ->
  exists qs, Forall prime qs /\ prod qs = m /\ total ps = p + total qs.
Proof.
  intros Hp Hps E. destruct (prime_in p ps Hp Hps) as (a & b & ->); [rewrite E; exists m; ring|].
  exists (a ++ b). splits; [eapply forall_mid; eauto| |apply total_mid].
  rewrite prod_mid in E. pose proof (prime_ge2 p Hp). apply Z.mul_reg_l in E; [auto|lia].
Qed.

Lemma radix_sum_total facs : forall n ps, chain n facs -> good_radices facs -> Forall prime ps -> prod ps = n -> radix_sum facs = total ps.
Proof.
  induction facs as [|x|p m rest IH] using list_ind2; intros n ps H G Hps E; cbn [chain] in *; try tauto.
  destruct H as (Hp & Hm & -> & Hc). cbn [radix_sum good_radices] in *. destruct G as [Gp G].
  assert (T : exists qs, Forall prime qs /\ prod qs = m /\ total ps = p + total qs).
  { destruct Gp as [->|Gp]; [|apply take_prime; auto].
    destruct (take_prime 2 (2 * m) ps prime_2 Hps) as (qs & Q1 & Q2 & Q3); [lia|].
    destruct (take_prime 2 m qs prime_2 Q1 Q2) as (rs & R1 & R2 & R3). exists rs. splits; auto. lia. }
  destruct T as (qs & Q1 & Q2 & Q3). rewrite Q3. f_equal.
  destruct (Z.eqb_spec m 1) as [->|Nm].
  - now rewrite (prod_1 qs Q1 Q2).
  - destruct Hc as [|Hc]; [lia|]. eapply IH; eauto.
Qed.

Lemma total_le_prod ps : Forall prime ps -> 0 <= total ps <= prod ps /\ 1 <= prod ps.
Proof.
  induction 1 as [|p ps Hp Hps [IH IH']]; cbn; [lia|]. pose proof (prime_ge2 p Hp). fold (total ps) (prod ps) in *.
  destruct Hps as [|q ps Hq Hps]; [cbn; lia|]. pose proof (prime_ge2 q Hq).
  assert (2 <= prod (q :: ps)); [|nia]. destruct (Z.eq_dec (prod (q :: ps)) 1) as [E|]; [|lia].
  cbn in E. destruct (Z.mul_eq_1 q _ E); lia.
Qed.
