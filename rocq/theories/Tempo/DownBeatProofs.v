(** The audio buffer of DownBeat. *)
From Coq Require Import List ZArith QArith Lia Bool.
From Verif.Base Require Import Imp Loops.
From Verif.Rate Require Import Df2tSpec DecimatorSpec DecimatorModel DecimatorProofs.
From Verif.Tempo Require Import DownBeatModel DownBeatSpec.
Import ListNotations.
Open Scope Z_scope.

Section Buffer.
  Context {T : Type} (zero : T) (add sub mul : T -> T -> T) (lit : Q -> T).
  Context {F : Type} (fz : F) (up : F -> T) (down : T -> F).
  Variables (junk : T) (junkF : F).
  Local Notation dblock := (decimator_block add sub mul up down).
  Local Notation drun := (decimator_run add sub mul up down).
  Local Notation dnew := (decimator_new zero lit junk).

  Lemma for_up_at off (blk buf : list F) n : zlen blk = n -> 0 <= off -> off + n <= zlen buf ->
    for_up 0 n (fun i b => v <- aget blk i ;; aset b (off + i) v) buf =
      OK (firstn (Z.to_nat off) buf ++ (blk ++ skipn (Z.to_nat (off + n)) buf)).
  Proof.
    intros Lb Ho Hb. pose proof (zlen_nonneg blk).
    match goal with |- for_up 0 n ?F buf = _ =>
      destruct (for_up_inv (fun i b => b = firstn (Z.to_nat off) buf ++ (firstn (Z.to_nat i) blk ++ skipn (Z.to_nat (off + i)) buf)) 0 n F buf)
        as (b & E & ->) end.
    - lia.
    - cbn [Z.to_nat firstn app]. rewrite Z.add_0_r. now rewrite firstn_skipn.
    - intros i b Hi ->. rewrite (aget_OK fz) by lia. cbn [bind]. rewrite aset_OK by (zl; lia). eexists; split; [reflexivity|].
      apply (zn_ext fz); [zl; lia|]. intros k Hk. zl. rewrite zn_upd by (zl; lia). rewrite !zn_app. zl.
      rewrite !Z.min_l by lia.
      zcase; subst; try lia; auto; rewrite ?zn_firstn, ?zn_skipn by lia; zcase; auto; try lia; f_equal; lia.
    - rewrite E. do 3 f_equal. apply firstn_all2. unfold zlen in *. lia.
  Qed.

  (** A decimator after the stream [x], having produced [y]. *)
  Definition stage (n f : Z) (d : decimator T) (x y : list F) : Prop :=
    exists calls outs, (d0 <- dnew n f ;; drun d0 calls) = OK (d, outs) /\
      blocks n (n / f) calls /\ fed calls = x /\ got (n / f) outs = y.

  Lemma drun_snoc d calls b o : drun d (calls ++ [(b, o)]) =
    ('(d, os) <- drun d calls ;; '(d, o') <- dblock d b o ;; OK (d, os ++ [o'])).
  Proof.
    revert d. induction calls as [|[b1 o1] calls IH]; intros d; cbn [app decimator_run bind].
    - destruct (dblock d b o) as [[d1 o1]| | |]; reflexivity.
    - destruct (dblock d b1 o1) as [[d1 o1']| | |]; cbn [bind]; auto. rewrite IH.
      destruct (drun d1 calls) as [[d2 os]| | |]; cbn [bind]; auto.
      destruct (dblock d2 b o) as [[d3 o3]| | |]; reflexivity.
  Qed.

  Lemma stage_new n f : 2 <= f -> 0 <= n -> exists d, dnew n f = OK d /\ stage n f d [] [].
  Proof.
    intros Hf Hn. assert (exists d, dnew n f = OK d) as (d & E).
    { unfold decimator_new. zcase. destruct (coefficients f). eexists; reflexivity. }
    exists d. split; auto. exists [], []. rewrite E. splits; auto. constructor.
  Qed.

  Lemma stage_step n f d x y blk out : 2 <= f -> 0 <= n -> (f | n) -> stage n f d x y ->
    zlen blk = n -> n / f <= zlen out ->
    exists d' o, dblock d blk out = OK (d', o) /\ zlen o = zlen out /\ stage n f d' (x ++ blk) (y ++ firstn (Z.to_nat (n / f)) o).
  Proof.
    intros Hf Hn Hd (calls & outs & E & B & <- & <-) Lb Lo.
    assert (B' : blocks n (n / f) (calls ++ [(blk, out)])).
    { apply Forall_app. split; [exact B|]. constructor; [split; [exact Lb|exact Lo]|constructor]. }
    destruct (decimator_stream zero add sub mul lit fz up down junk n f _ Hf Hn Hd B') as (d' & outs' & _ & _ & E' & _ & _ & _ & K).
    destruct (dnew n f) as [d0| | |] eqn:En; try discriminate. cbn [bind] in E, E'.
    rewrite drun_snoc, E in E'. cbn [bind] in E'.
    destruct (dblock d blk out) as [[d1 o]| | |] eqn:Eb; try discriminate. cbn [bind] in E'. injection E' as <- <-.
    exists d1, o. splits; auto.
    - apply Forall2_app_inv_l in K as (l1 & l2 & _ & K2 & EL).
      inversion K2 as [|? o2 ? l3 K4 K3]; subst. inversion K3; subst. apply app_inj_tail in EL as [_ <-]. apply K4.
    - exists (calls ++ [(blk, out)]), (outs ++ [o]). rewrite En. cbn [bind]. rewrite drun_snoc, E. cbn [bind]. rewrite Eb.
      splits; auto.
      + unfold fed. rewrite map_app, concat_app. cbn. now rewrite app_nil_r.
      + unfold got. rewrite map_app, concat_app. cbn. now rewrite app_nil_r.
  Qed.

  Lemma stage_decimate n f d x y : 2 <= f -> 0 <= n -> (f | n) -> stage n f d x y ->
    decimate zero add sub mul lit up down f x y.
  Proof.
    intros Hf Hn Hd (calls & outs & E & B & <- & <-).
    destruct (decimator_stream zero add sub mul lit fz up down junk n f _ Hf Hn Hd B) as (d' & outs' & ys & zs & E' & R & V & G & _).
    rewrite E in E'. injection E' as <- <-. destruct (coefficients f) as [b a] eqn:EC.
    exists ys, zs. rewrite EC. auto.
  Qed.

  (** The state after pushing blocks [x] in all, whose decimation is [w]. *)
  Variables (factor inc : Z).
  Hypothesis Hf : 1 <= factor.
  Hypothesis Hi : 0 <= inc.
  Hypothesis Hd : (factor | inc).
  Hypothesis H8 : factor <= 8 \/ (8 | factor).
  Local Notation m := (inc / factor).
  Local Notation st := (@downbeat T F).

  Lemma two_stage : 8 < factor -> 2 <= factor / 8 /\ 0 <= inc / 8 /\ (8 | inc) /\ (factor / 8 | inc / 8) /\
    inc / 8 / (factor / 8) = m.
  Proof.
    intros F8. destruct H8 as [?|[g Eg]]; [lia|]. destruct Hd as [q Eq].
    assert (G : factor / 8 = g) by (rewrite Eg; apply Z.div_mul; lia).
    assert (I8 : inc / 8 = q * g) by (rewrite Eq, Eg, Z.mul_assoc; apply Z.div_mul; lia).
    assert (MQ : m = q) by (rewrite Eq; apply Z.div_mul; lia).
    assert (0 <= inc / 8) by (apply Z.div_pos; lia).
    rewrite G, I8, MQ in *. splits; try lia.
    - exists (q * g). lia.
    - exists q. lia.
    - apply Z.div_mul. lia.
  Qed.

  Definition stages (s : st) (x w : list F) : Prop :=
    if factor <=? 1 then b_dec1 s = None /\ w = x
    else if factor <=? 8 then
      b_dec2 s = None /\ match b_dec1 s with None => x = [] /\ w = [] | Some d => stage inc factor d x w end
    else match b_dec1 s, b_dec2 s with
         | None, None => x = [] /\ w = []
         | Some d1, Some d2 => zlen (b_decbuf s) = inc / 8 /\
             exists v, stage inc 8 d1 x v /\ stage (inc / 8) (factor / 8) d2 v w
         | _, _ => False
         end.

  Lemma stages_decimated s x w : stages s x w -> decimated zero add sub mul lit up down factor x w.
  Proof.
    unfold stages, decimated. destruct (Z.leb_spec factor 1) as [F1|F1]; [tauto|].
    assert (N : forall f, decimate zero add sub mul lit up down f [] []).
    { intros f. exists [], []. splits; auto; split; try reflexivity; intros; zl; try lia. }
    destruct (Z.leb_spec factor 8) as [F8|F8].
    - intros [_ H]. destruct (b_dec1 s); [|destruct H as (-> & ->); apply N].
      eapply (stage_decimate inc factor); eauto; lia.
    - intros H. destruct (b_dec1 s), (b_dec2 s); try tauto.
      + destruct H as (_ & v & S1 & S2). exists v. destruct (two_stage F8) as (Q1 & Q2 & Q3 & Q4 & _).
        split; [eapply (stage_decimate inc 8)|eapply (stage_decimate (inc / 8) (factor / 8))]; eauto; lia.
      + destruct H as (-> & ->). exists []. split; apply N.
  Qed.

  Definition Inv (s : st) (x w w0 : list F) : Prop :=
    b_factor s = factor /\ b_inc s = inc /\ zlen (b_buffer s) = b_bufsiz s /\
    0 <= b_fill s <= b_bufsiz s /\ (b_bufsiz s = 0 \/ inc <= b_bufsiz s) /\
    stages s x w /\ w = w0 ++ getBufferedAudio s.

  Lemma push_ok s x w w0 blk : zlen blk = inc -> Inv s x w w0 ->
    exists s' w', push zero add sub mul lit up down junk junkF s blk = OK s' /\
      Inv s' (x ++ blk) w' w0 /\ b_fill s' = b_fill s + m.
  Proof.
    intros Lb (I1 & I2 & I3 & I4 & I5 & I6 & I7).
    assert (M : 0 <= m <= inc).
    { split; [apply Z.div_pos; lia|]. apply Z.div_le_upper_bound; nia. }
    unfold push. rewrite I1. destruct (Z.eqb_spec factor 0); [lia|]. cbv zeta.
    set (s1 := grow junkF s).
    assert (G : b_factor s1 = factor /\ b_inc s1 = inc /\ zlen (b_buffer s1) = b_bufsiz s1 /\ b_fill s1 = b_fill s /\
      b_fill s1 + m <= b_bufsiz s1 /\ (b_bufsiz s1 = 0 \/ inc <= b_bufsiz s1) /\
      b_dec1 s1 = b_dec1 s /\ b_dec2 s1 = b_dec2 s /\ b_decbuf s1 = b_decbuf s /\
      firstn (Z.to_nat (b_fill s)) (b_buffer s1) = getBufferedAudio s).
    { unfold s1, grow. rewrite I1, I2. destruct (Z.ltb_spec (b_bufsiz s) (b_fill s + m)).
      - cbn [b_factor b_inc b_buffer b_bufsiz b_fill b_dec1 b_dec2 b_decbuf].
        assert (SZ : (if b_bufsiz s =? 0 then inc * 16 else b_bufsiz s * 2) >= b_fill s + m /\
                     (if b_bufsiz s =? 0 then inc * 16 else b_bufsiz s * 2) >= b_bufsiz s /\
                     (if b_bufsiz s =? 0 then inc * 16 else b_bufsiz s * 2) >= inc).
        { zcase; lia. }
        set (siz := if b_bufsiz s =? 0 then inc * 16 else b_bufsiz s * 2) in *. splits; auto; try lia.
        + zl. lia.
        + unfold getBufferedAudio. rewrite firstn_app.
          replace (Z.to_nat (b_fill s) - length (b_buffer s))%nat with 0%nat by (unfold zlen in *; lia).
          cbn [firstn]. apply app_nil_r.
      - splits; auto. }
    destruct G as (G1 & G2 & G3 & G4 & G5 & G6 & G7 & G8 & G9 & G10). 
    clearbody s1.
    assert (SK : zlen (skipn (Z.to_nat (b_fill s1)) (b_buffer s1)) = b_bufsiz s1 - b_fill s1).
    { zl. lia. }
    unfold stages in I6.
    (* the common end: the new buffer *)
    assert (FIN : forall d1 d2 db o w', zlen o = b_bufsiz s1 - b_fill s1 ->
      stages (mkDownBeat factor inc d1 d2 db (firstn (Z.to_nat (b_fill s1)) (b_buffer s1) ++ o) (b_bufsiz s1) (b_fill s1 + m))
        (x ++ blk) w' -> w' = w ++ firstn (Z.to_nat m) o ->
      Inv (mkDownBeat factor inc d1 d2 db (firstn (Z.to_nat (b_fill s1)) (b_buffer s1) ++ o) (b_bufsiz s1) (b_fill s1 + m))
        (x ++ blk) w' w0).
    { intros d1 d2 db o w' Lo S1 E. unfold Inv. cbn [b_factor b_inc b_buffer b_bufsiz b_fill b_dec1 b_dec2 b_decbuf].
      splits; auto; try lia; [zl; lia|]. rewrite E, I7, <- app_assoc. f_equal. unfold getBufferedAudio at 2.
      cbn [b_fill b_buffer]. rewrite firstn_app. rewrite firstn_firstn.
      replace (Nat.min (Z.to_nat (b_fill s1 + m)) (Z.to_nat (b_fill s1))) with (Z.to_nat (b_fill s)) by lia.
      rewrite G10. f_equal. f_equal. rewrite firstn_length. unfold zlen in *. lia. }
    destruct (Z.leb_spec factor 1) as [F1|F1].
    { destruct I6 as (D & ->). rewrite G7, D. rewrite G1. zcase. cbn [bind]. rewrite G7, D, G2.
      assert (factor = 1) by lia. assert (EM : m = inc) by (rewrite H0; apply Z.div_1_r).
      rewrite (for_up_at (b_fill s1) blk) by (auto; lia). cbn [bind]. eexists _, _. split; [reflexivity|].
      split; [|cbn [b_fill]; rewrite G1; lia]. rewrite G1.
      apply FIN with (w' := x ++ blk).
      - zl. lia.
      - unfold stages. zcase. auto.
      - f_equal. rewrite EM, <- Lb. rewrite firstn_app. replace (Z.to_nat (zlen blk)) with (length blk) by (unfold zlen; lia).
        rewrite firstn_all, Nat.sub_diag. cbn [firstn]. now rewrite app_nil_r. }
    destruct (Z.leb_spec factor 8) as [F8|F8].
    { destruct I6 as (D2 & I6). rewrite D2 in G8.
      assert (exists d s2, (match b_dec1 s1 with None => if 1 <? b_factor s1 then makeDecimators zero lit junk junkF s1 else OK s1 | Some _ => OK s1 end) = OK s2 /\
         b_dec1 s2 = Some d /\ b_dec2 s2 = None /\ b_factor s2 = factor /\ b_inc s2 = inc /\ b_buffer s2 = b_buffer s1 /\
         b_bufsiz s2 = b_bufsiz s1 /\ b_fill s2 = b_fill s1 /\ stage inc factor d x w) as (d & s2 & E & K1 & K2 & K3 & K4 & K5 & K6 & K7 & K8).
      { rewrite G7. destruct (b_dec1 s) as [d|] eqn:ED.
        - exists d, s1. splits; auto.
        - destruct I6 as (-> & ->). destruct (stage_new inc factor) as (d & En & Sd); auto; try lia.
          rewrite G1. zcase. unfold makeDecimators. rewrite G1, G2. zcase. rewrite En. cbn [bind].
          eexists d, _. splits; try reflexivity; auto. }
      rewrite E. cbn [bind]. rewrite K1, K2. unfold into_buffer. rewrite K5, K7.
      destruct (stage_step inc factor d x w blk (skipn (Z.to_nat (b_fill s1)) (b_buffer s1))) as (d' & o & Eb & Lo & Sd); auto; try lia.
      rewrite Eb. cbn [bind]. eexists _, _. split; [reflexivity|]. split; [|cbn [b_fill]; rewrite K3, K4; lia].
      rewrite K3, K4, K6. eapply FIN; [lia| |reflexivity]. unfold stages. zcase.
      cbn [b_dec1 b_dec2]. split; auto. }
    destruct (two_stage F8) as (Q1 & Q2 & Q3 & Q4 & Q5).
    assert (exists d1 d2 s2 v, (match b_dec1 s1 with None => if 1 <? b_factor s1 then makeDecimators zero lit junk junkF s1 else OK s1 | Some _ => OK s1 end) = OK s2 /\
         b_dec1 s2 = Some d1 /\ b_dec2 s2 = Some d2 /\ zlen (b_decbuf s2) = inc / 8 /\ b_factor s2 = factor /\ b_inc s2 = inc /\ b_buffer s2 = b_buffer s1 /\
         b_bufsiz s2 = b_bufsiz s1 /\ b_fill s2 = b_fill s1 /\ stage inc 8 d1 x v /\ stage (inc / 8) (factor / 8) d2 v w)
      as (d1 & d2 & s2 & v & E & K1 & K2 & KD & K3 & K4 & K5 & K6 & K7 & K8 & K9).
    { rewrite G7. destruct (b_dec1 s) as [d1|] eqn:ED; destruct (b_dec2 s) as [d2|] eqn:ED2; try tauto.
      - destruct I6 as (LD & v & S1 & S2). exists d1, d2, s1, v. rewrite G9. splits; auto.
      - destruct I6 as (-> & ->). destruct (stage_new inc 8) as (d1 & En & Sd); auto; try lia.
        destruct (stage_new (inc / 8) (factor / 8)) as (d2 & En2 & Sd2); auto; try lia.
        rewrite G1. zcase. unfold makeDecimators. rewrite G1, G2. zcase. rewrite En. cbn [bind]. rewrite En2. cbn [bind].
        eexists d1, d2, _, []. splits; try reflexivity; auto. cbn [b_decbuf]. zl. lia. }
    rewrite E. cbn [bind]. rewrite K1, K2.
    destruct (stage_step inc 8 d1 x v blk (b_decbuf s2)) as (d1' & o1 & Eb1 & Lo1 & Sd1); auto; try lia.
    rewrite Eb1. cbn [bind]. unfold into_buffer. rewrite K5, K7.
    assert (EO : firstn (Z.to_nat (inc / 8)) o1 = o1) by (apply firstn_all2; unfold zlen in *; lia). rewrite EO in Sd1.
    destruct (stage_step (inc / 8) (factor / 8) d2 v w o1 (skipn (Z.to_nat (b_fill s1)) (b_buffer s1))) as (d2' & o2 & Eb2 & Lo2 & Sd2); auto; try lia.
    rewrite Eb2. cbn [bind]. eexists _, _. split; [reflexivity|]. split; [|cbn [b_fill]; rewrite K3, K4; lia].
    rewrite K3, K4, K6. eapply FIN; [lia| |reflexivity]. unfold stages. zcase.
    cbn [b_dec1 b_dec2 b_decbuf]. split; [lia|]. rewrite Q5 in Sd2. eauto.
  Qed.

  (** Any sequence of calls. *)
  Lemma run_ops_ok ops : blocks_of inc ops -> forall s x w w0 k, Inv s x w w0 -> b_fill s = k * m ->
    exists s' w' w0', run_ops zero add sub mul lit up down junk junkF s ops = OK s' /\
      Inv s' (x ++ pushed ops) w' w0' /\ b_fill s' = since_reset k ops * m /\
      zlen w' = zlen w + pushes ops * m.
  Proof.
    induction ops as [|[b|] ops IH]; intros Hb s x w w0 k HI Hk; cbn [run_ops pushes since_reset].
    - exists s, w, w0. unfold pushed. cbn [map concat]. rewrite app_nil_r. splits; auto; lia.
    - destruct (push_ok s x w w0 b) as (s' & w' & E & HI' & Hk'); auto; [apply Hb; now left|]. rewrite E. cbn [bind].
      destruct (IH (fun b H => Hb b (or_intror H)) s' (x ++ b) w' w0 (k + 1)) as (s2 & w2 & w02 & E2 & HI2 & F2 & L2); auto; [lia|].
      exists s2, w2, w02. unfold pushed in *. cbn [map concat block_of]. rewrite app_assoc. splits; auto.
      rewrite L2. destruct HI as (_ & _ & B1 & B2 & _ & _ & ->), HI' as (_ & _ & B3 & B4 & _ & _ & ->).
      unfold getBufferedAudio. zl. lia.
    - assert (HI' : Inv (resetAudioBuffer s) x w w).
      { destruct HI as (I1 & I2 & I3 & I4 & I5 & I6 & I7). unfold Inv, resetAudioBuffer, getBufferedAudio.
        cbn [b_factor b_inc b_buffer b_bufsiz b_fill]. splits; auto; try lia. cbn. now rewrite app_nil_r. }
      destruct (IH (fun b H => Hb b (or_intror H)) _ x w w 0 HI') as (s2 & w2 & w02 & E2 & HI2 & F2 & L2); [reflexivity|].
      exists s2, w2, w02. unfold pushed in *. cbn [map concat block_of app]. splits; auto.
  Qed.
End Buffer.

Section Buffer.
  Context {T : Type} (zero : T) (add sub mul : T -> T -> T) (lit : Q -> T).
  Context {F : Type} (up : F -> T) (down : T -> F).
  Theorem buffered_audio (fz : F) junk junkF factor inc ops : 1 <= factor -> 0 <= inc -> (factor | inc) ->
    (factor <= 8 \/ (8 | factor)) -> blocks_of inc ops ->
    exists s w, run_ops zero add sub mul lit up down junk junkF (downbeat_new factor inc) ops = OK s /\
      decimated zero add sub mul lit up down factor (pushed ops) w /\
      zlen w = pushes ops * (inc / factor) /\
      getBufferedAudio s = skipn (Z.to_nat ((pushes ops - since_reset 0 ops) * (inc / factor))) w.
  Proof.
    intros Hf Hi Hd H8 Hb.
    destruct (run_ops_ok zero add sub mul lit fz up down junk junkF factor inc Hf Hi Hd H8 ops Hb (downbeat_new factor inc) [] [] [] 0)
      as (s & w & w0 & E & HI & Ef & L).
    - unfold Inv, stages, getBufferedAudio, downbeat_new. cbn [b_factor b_inc b_dec1 b_dec2 b_buffer b_bufsiz b_fill].
      splits; auto; try lia. zcase; auto.
    - reflexivity.
    - exists s, w. splits; auto.
      + eapply stages_decimated; eauto. apply HI.
      + destruct HI as (_ & _ & B1 & B2 & _ & _ & ->). revert L. unfold getBufferedAudio at 1. zl. intros L.
        symmetry. rewrite skipn_app.
        replace (Z.to_nat ((pushes ops - since_reset 0 ops) * (inc / factor))) with (length w0) by (unfold zlen in *; lia).
        now rewrite skipn_all, Nat.sub_diag.
  Qed.
End Buffer.
