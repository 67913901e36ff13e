(** How errors of the steps of a simulation add up: over the real numbers. *)
From Coq Require Import ZArith List Bool Lia Reals Lra Psatz.
From Verif Require Import Base Arith RealArith P_Base P_Bounds P_Dft P_DftList P_DftField P_Euclid.
Import ListNotations.
Open Scope R_scope.

Section E.
Variable T : dsys.
Variable n : nat.
Hypothesis GT : good T.
Hypothesis Hn : (0 < n)%nat.
Notation S := (rows T n).
Notation N := (dN S).
Notation h := (n / 2 + 1)%nat.
Notation Nr := (INR N).
Notation r := (sqrt Nr).
(** relative error of the transforms, of the table; its root; unit roundoff; absolute errors *)
Variables eps dl e u tau t : R.
Hypothesis Heps : 0 < eps.
Hypothesis Hdl : 0 <= dl.
Hypothesis He : 0 < e.
Hypothesis Hee : e * e = eps + dl.
Hypothesis Hes : e <= 1 / 1000.
Hypothesis Hu : 0 < u.
Hypothesis Hue : u <= eps.
Hypothesis Ht : 0 <= t <= tau.
Hypothesis Htau : tau <= eps / 1000.

Lemma GS : good S. Proof. apply rows_good; auto. Qed.
Lemma Nr1 : 1 <= Nr. Proof. pose proof (g_pos S GS). change 1 with (INR 1). apply le_INR. lia. Qed.
Lemma r1 : 1 <= r. Proof. rewrite <- sqrt_1. apply sqrt_le_1; pose proof Nr1; lra. Qed.
Lemma rr : r * r = Nr. Proof. apply sqrt_sqrt. pose proof Nr1; lra. Qed.
Lemma rmul a b : a <= r * b -> r * a <= Nr * b.
Proof. intros H. replace (Nr * b) with (r * (r * b)) by (rewrite <- Rmult_assoc, rr; reflexivity). apply Rmult_le_compat_l; [pose proof r1; lra|exact H]. Qed.
Lemma e2s : eps + dl <= e / 1000. Proof. rewrite <- Hee. nra. Qed.

(** ** the covariance spectrum *)
Section Cov.
Variables (c cF : list R) (CF : list (R * R)).
Hypothesis Hc1 : forall j, (j < N)%nat -> Rabs (nthR c j) <= 1.
Hypothesis HcF : forall j, (j < N)%nat -> Rabs (nthR cF j - nthR c j) <= dl.
Hypothesis HCF : fd T n CF (gr2c T n cF) <= eps * (r * rn N (nthR cF)) + tau.

Lemma cF_norm : rn N (nthR cF) <= r * (1 + dl).
Proof. apply rn_const. intros j Hj. pose proof (Hc1 j Hj). pose proof (HcF j Hj). pose proof (Rabs_triang (nthR cF j - nthR c j) (nthR c j)) as A. replace (nthR cF j - nthR c j + nthR c j) with (nthR cF j) in A by ring. lra. Qed.
Lemma fd_tri X Y Z : fd T n X Z <= fd T n X Y + fd T n Y Z.
Proof. unfold fd. apply cn_sub_tri. Qed.
Lemma stageA : fd T n CF (gr2c T n c) <= 101 / 100 * (Nr * (e * e)).
Proof.
  pose proof (fd_tri CF (gr2c T n cF) (gr2c T n c)) as A. rewrite (fd_gr2c T n GT Hn) in A.
  assert (B : rn N (fun j => nthR cF j - nthR c j) <= r * dl) by (apply rn_const; exact HcF).
  pose proof cF_norm as C. pose proof r1. pose proof rr. pose proof Nr1.
  assert (D : r * rn N (fun j => nthR cF j - nthR c j) <= Nr * dl) by (apply rmul; exact B).
  assert (F : r * rn N (nthR cF) <= Nr * (1 + dl)) by (apply rmul; exact C).
  assert (I : eps * (r * rn N (nthR cF)) <= eps * (Nr * (1 + dl))) by (apply Rmult_le_compat_l; lra).
  rewrite Hee. pose proof e2s. assert (dl <= 1 / 1000) by lra. assert (eps * (Nr * (1 + dl)) <= eps * Nr * (1 + 1/1000)) by (assert (0 < eps * Nr) by nra; nra).
  assert (tau <= eps * Nr / 1000) by nra. assert (0 <= Nr * dl) by nra. assert (0 <= eps * Nr) by nra. lra.
Qed.
Lemma fre_bound k : Rabs (fre S (nthR c) k) <= Nr.
Proof.
  unfold fre. eapply Rle_trans; [apply rsum_abs|]. rewrite <- (Rmult_1_r Nr), <- rsum_const. apply rsum_le. intros j Hj. rewrite Rabs_mult.
  pose proof (Hc1 j Hj). pose proof (Rabs_pos (nthR c j)). pose proof (Rabs_pos (cos (dth S k j))).
  assert (Rabs (cos (dth S k j)) <= 1) by (apply Rabs_le; pose proof (COS_bound (dth S k j)); lra). nra.
Qed.
Lemma CF_re k : (k < N)%nat -> Rabs (fst (nth (qi T n k) CF (0, 0)) - fre S (nthR c) k) <= 101 / 100 * (Nr * (e * e)).
Proof.
  intros Hk. pose proof stageA as A. unfold fd in A.
  destruct (cn_coord N (fun k => csub (gherm T n CF k) (gherm T n (gr2c T n c) k)) k Hk) as [B _].
  pose proof (Rle_trans _ _ _ B A) as B'. clear B. rename B' into B. cbv beta in B. rewrite (gr2c_full T n GT Hn) in B by auto. unfold csub in B. cbn [fst snd] in B.
  destruct (gherm_qi T n CF k) as [E|E]; rewrite E in B; cbn [fst snd] in B; lra.
Qed.
Lemma CF_im k : (k < N)%nat -> Rabs (snd (nth (qi T n k) CF (0, 0))) <= 3 * Nr.
Proof.
  intros Hk. pose proof stageA as A. pose proof Nr1.
  destruct (cn_coord N (gherm T n CF) k Hk) as [_ B].
  pose proof (cn_near N (gherm T n CF) (gherm T n (gr2c T n c))) as D. fold (fd T n CF (gr2c T n c)) in D. fold (fn T n (gr2c T n c)) in D. rewrite (fn_gr2c T n GT Hn) in D.
  assert (F : rn N (nthR c) <= r * 1) by (apply rn_const; exact Hc1). pose proof r1. pose proof rr.
  assert (G : r * rn N (nthR c) <= Nr * 1) by (apply rmul; exact F).
  pose proof e2s. rewrite <- Hee in H2. assert (e * e <= 1 / 1000) by lra. assert (Nr * (e * e) <= Nr * 1) by (apply Rmult_le_compat_l; lra).
  assert (Rabs (snd (nth (qi T n k) CF (0, 0))) = Rabs (snd (gherm T n CF k))).
  { destruct (gherm_qi T n CF k) as [E|E]; rewrite E; cbn [snd]; [|rewrite Rabs_Ropp]; reflexivity. }
  rewrite H5. lra.
Qed.
(** the filter *)
Lemma filter_err k sF : (k < N)%nat -> Rabs (sF - sqrt (Rmax (fst (nth (qi T n k) CF (0, 0))) 0)) <= u * sqrt (Rmax (fst (nth (qi T n k) CF (0, 0))) 0) ->
  Rabs (sF - amp S (nthR c) k) <= 102 / 100 * (e * r) /\ Rabs sF <= 11 / 10 * r.
Proof.
  intros Hk HsF. pose proof (CF_re k Hk) as A. set (a := fst (nth (qi T n k) CF (0, 0))) in *. set (b := fre S (nthR c) k) in *.
  pose proof (fre_bound k) as FB. fold b in FB. pose proof Nr1 as N1. pose proof rr as RR. pose proof r1 as R1. pose proof e2s as ES.
  assert (E0 : Rabs (Rmax a 0 - Rmax b 0) <= 101 / 100 * (Nr * (e * e))) by (eapply Rle_trans; [apply max0_dist|exact A]).
  assert (E1 : Rabs (sqrt (Rmax a 0) - sqrt (Rmax b 0)) <= 1005 / 1000 * (e * r)).
  { eapply Rle_trans; [apply sqrt_dist; apply Rmax_r|]. apply Rle_trans with (sqrt ((1005 / 1000 * (e * r)) * (1005 / 1000 * (e * r)))).
    - apply sqrt_le_1; [apply Rabs_pos|nra|]. eapply Rle_trans; [exact E0|]. replace (Nr * (e * e)) with (r * r * (e * e)) by (rewrite RR; reflexivity). assert (0 <= r * r * (e * e)) by nra. nra.
    - right. apply sqrt_square. nra. }
  assert (SB : sqrt (Rmax b 0) <= r). { apply sqrt_le_1; [apply Rmax_r|lra|]. apply Rmax_lub; [|lra]. pose proof (Rle_abs b). lra. }
  pose proof (sqrt_pos (Rmax b 0)). 
  assert (ER : e * r <= r / 1000) by nra.
  assert (SA : sqrt (Rmax a 0) <= 1002 / 1000 * r). { pose proof (Rle_abs (sqrt (Rmax a 0) - sqrt (Rmax b 0))). lra. }
  assert (UE : u * (1002 / 1000 * r) <= 1002 / 1000000 * (e * r)). { assert (u <= e / 1000) by lra. assert (u * r <= e / 1000 * r) by (apply Rmult_le_compat_r; lra). lra. }
  assert (U2 : u * sqrt (Rmax a 0) <= u * (1002 / 1000 * r)) by (apply Rmult_le_compat_l; lra).
  assert (AM : amp S (nthR c) k = sqrt (Rmax b 0)) by reflexivity. rewrite AM.
  assert (TR : Rabs (sF - sqrt (Rmax b 0)) <= Rabs (sF - sqrt (Rmax a 0)) + Rabs (sqrt (Rmax a 0) - sqrt (Rmax b 0))).
  { replace (sF - sqrt (Rmax b 0)) with ((sF - sqrt (Rmax a 0)) + (sqrt (Rmax a 0) - sqrt (Rmax b 0))) by ring. apply Rabs_triang. }
  assert (0 <= e * r) by nra. assert (P : Rabs (sF - sqrt (Rmax b 0)) <= 102 / 100 * (e * r)) by lra. split; [exact P|].
  replace sF with ((sF - sqrt (Rmax b 0)) + sqrt (Rmax b 0)) by ring. eapply Rle_trans; [apply Rabs_triang|]. rewrite (Rabs_right (sqrt (Rmax b 0))) by lra. lra.
Qed.
End Cov.

(** ** the noise spectrum *)
Section Noise.
Variables (noise xF : list R) (WF : list (R * R)).
Notation nu := (rn N (nthR noise)).
Notation x := (map (fun a => a * / r) noise).
Hypothesis HxF : forall j, (j < N)%nat -> Rabs (nthR xF j - nthR noise j * / r) <= 8 * u * (Rabs (nthR noise j) * / r) + t.
Hypothesis HWF : fd T n WF (gr2c T n xF) <= eps * (r * rn N (nthR xF)) + tau.
Hypothesis Hlen : length noise = N.

Lemma ir : 0 < / r. Proof. apply Rinv_0_lt_compat. pose proof r1. lra. Qed.
Lemma rir a : r * (a * / r) = a. Proof. pose proof r1. field. lra. Qed.
Lemma x_nth j : (j < N)%nat -> nthR x j = nthR noise j * / r.
Proof. intros Hj. unfold nthR. rewrite (nth_map' _ _ j 0 0) by lia. reflexivity. Qed.
Lemma x_norm : rn N (nthR x) = nu * / r.
Proof. rewrite (rn_ext N _ (fun j => / r * nthR noise j)) by (intros; rewrite x_nth by auto; ring). rewrite rn_scal, Rabs_right by (pose proof ir; lra). ring. Qed.
Lemma dx_norm : rn N (fun j => nthR xF j - nthR x j) <= 8 * u * (nu * / r) + r * t.
Proof.
  rewrite <- x_norm. apply rn_err; [lra|lra|]. intros j Hj. rewrite x_nth by auto. eapply Rle_trans; [apply HxF; auto|].
  rewrite Rabs_mult, (Rabs_right (/ r)) by (pose proof ir; lra). lra.
Qed.
Lemma xF_norm : r * rn N (nthR xF) <= (1 + 8 * u) * nu + Nr * t.
Proof.
  assert (A : rn N (nthR xF) <= rn N (nthR x) + rn N (fun j => nthR xF j - nthR x j)).
  { eapply Rle_trans; [|apply rn_tri]. right. apply rn_ext. intros. ring. }
  rewrite x_norm in A. pose proof dx_norm as B. pose proof r1.
  assert (C : rn N (nthR xF) <= (1 + 8 * u) * nu * / r + r * t) by lra.
  apply Rle_trans with (r * ((1 + 8 * u) * nu * / r + r * t)); [apply Rmult_le_compat_l; lra|]. rewrite Rmult_plus_distr_l, rir, <- Rmult_assoc, rr. lra.
Qed.
Lemma stageB : fd T n WF (gr2c T n x) <= 10 * eps * nu + 3 * (Nr * tau).
Proof.
  pose proof (fd_tri WF (gr2c T n xF) (gr2c T n x)) as A. rewrite (fd_gr2c T n GT Hn) in A. pose proof dx_norm as B. pose proof xF_norm as C. pose proof r1 as R1. pose proof Nr1 as N1.
  assert (D : r * rn N (fun j => nthR xF j - nthR x j) <= 8 * u * nu + Nr * t).
  { apply Rle_trans with (r * (8 * u * (nu * / r) + r * t)); [apply Rmult_le_compat_l; lra|]. rewrite Rmult_plus_distr_l. replace (8 * u * (nu * / r)) with (8 * u * nu * / r) by ring. rewrite rir, <- Rmult_assoc, rr. lra. }
  pose proof (rn_nn N (nthR noise)) as V. pose proof e2s as ES. assert (E1 : eps <= 1 / 1000) by (lra).
  assert (F : eps * (r * rn N (nthR xF)) <= eps * ((1 + 8 * u) * nu + Nr * t)) by (apply Rmult_le_compat_l; lra).
  assert (NT : Nr * t <= Nr * tau) by (apply Rmult_le_compat_l; lra). assert (N0 : 0 <= Nr * t) by (apply Rmult_le_pos; lra).
  assert (E2 : eps * (Nr * t) <= 1 / 1000 * (Nr * t)) by (apply Rmult_le_compat_r; lra).
  assert (E3 : eps * ((1 + 8 * u) * nu) <= eps * (2 * nu)) by (apply Rmult_le_compat_l; [lra|]; apply Rmult_le_compat_r; lra).
  assert (E4 : 8 * u * nu <= 8 * eps * nu) by (apply Rmult_le_compat_r; lra).
  assert (E5 : tau <= Nr * tau) by (rewrite <- (Rmult_1_l tau) at 1; apply Rmult_le_compat_r; lra).
  rewrite Rmult_plus_distr_l in F. assert (E6 : eps * (2 * nu) = 2 * (eps * nu)) by ring. assert (E7 : 8 * eps * nu = 8 * (eps * nu)) by ring. assert (E8 : 10 * eps * nu = 10 * (eps * nu)) by ring. lra.
Qed.
Lemma W_norm : fn T n (gr2c T n x) = nu.
Proof. rewrite (fn_gr2c T n GT Hn), x_norm. apply rir. Qed.
Lemma eps_nu : 10 * eps * nu <= e / 100 * nu.
Proof. pose proof (rn_nn N (nthR noise)) as V. pose proof e2s. apply Rmult_le_compat_r; lra. Qed.
Lemma WF_norm : fn T n WF <= 101 / 100 * nu + 3 * (Nr * tau).
Proof.
  pose proof (cn_near N (gherm T n WF) (gherm T n (gr2c T n x))) as D. fold (fd T n WF (gr2c T n x)) in D. fold (fn T n (gr2c T n x)) in D. fold (fn T n WF) in D. rewrite W_norm in D.
  pose proof stageB. pose proof eps_nu. pose proof (rn_nn N (nthR noise)) as V. assert (e / 100 * nu <= 1 / 100 * nu) by (apply Rmult_le_compat_r; lra). lra.
Qed.
End Noise.

(** ** the product *)
Section Prod.
Variables (c noise : list R) (WF XF : list (R * R)) (sF : nat -> R).
Notation nu := (rn N (nthR noise)).
Notation x := (map (fun a => a * / r) noise).
Hypothesis Hc1 : forall j, (j < N)%nat -> Rabs (nthR c j) <= 1.
Hypothesis HsF : forall k, (k < N)%nat -> Rabs (sF k - amp S (nthR c) k) <= 102 / 100 * (e * r) /\ Rabs (sF k) <= 11 / 10 * r.
Hypothesis HW : fd T n WF (gr2c T n x) <= 10 * eps * nu + 3 * (Nr * tau).
Hypothesis HWn : fn T n WF <= 101 / 100 * nu + 3 * (Nr * tau).
Hypothesis HX : forall k, (k < N)%nat ->
  Rabs (fst (nth (qi T n k) XF (0, 0)) - sF k * fst (nth (qi T n k) WF (0, 0))) <= u * Rabs (sF k * fst (nth (qi T n k) WF (0, 0))) + t /\
  Rabs (snd (nth (qi T n k) XF (0, 0)) - sF k * snd (nth (qi T n k) WF (0, 0))) <= u * Rabs (sF k * snd (nth (qi T n k) WF (0, 0))) + t.
Hypothesis Hlen : length noise = N.
Notation X := (map (fun q => let k := (q / h * n + q mod h)%nat in
  (amp S (nthR c) k * fst (nth q (gr2c T n x) (0, 0)), amp S (nthR c) k * snd (nth q (gr2c T n x) (0, 0)))) (seq 0 (dN T * h))).

Lemma amp_bound k : 0 <= amp S (nthR c) k <= r.
Proof.
  split; [apply sqrt_pos|]. apply sqrt_le_1; [apply Rmax_r|pose proof Nr1; lra|]. apply Rmax_lub; [|pose proof Nr1; lra].
  pose proof (fre_bound c Hc1 k). pose proof (Rle_abs (fre S (nthR c) k)). lra.
Qed.
Lemma stored_X k : (k < N)%nat -> (k mod n < h)%nat -> nth (stored n k) X (0, 0) =
  (amp S (nthR c) k * fst (nth (stored n k) (gr2c T n x) (0, 0)), amp S (nthR c) k * snd (nth (stored n k) (gr2c T n x) (0, 0))).
Proof.
  intros Hk Hm. rewrite nth_map_seq by (apply stored_lt; auto). cbv zeta. unfold stored at 1 2 4 5. destruct (flat_div h (k / n) (k mod n) Hm) as [-> ->].
  replace (k / n * n + k mod n)%nat with k by (rewrite (Nat.div_mod k n) at 1 by lia; lia). reflexivity.
Qed.
Lemma herm_X k : (k < N)%nat -> gherm T n X k = (amp S (nthR c) k * fst (gherm T n (gr2c T n x) k), amp S (nthR c) k * snd (gherm T n (gr2c T n x) k)).
Proof.
  intros Hk. rewrite (gr2c_full T n GT Hn) by auto. cbn [fst snd].
  rewrite (gherm_full T n GT Hn X (fun k => amp S (nthR c) k * fre S (nthR x) k) (fun k => amp S (nthR c) k * fim S (nthR x) k)); auto.
  - f_equal. ring.
  - intros q Hq Hm. rewrite stored_X by auto. rewrite (gr2c_nth T n Hn) by auto. cbn [fst snd]. f_equal. ring.
  - intros q Hq. rewrite (amp_ng S) by (auto using GS). rewrite (fre_ng S GS) by auto. reflexivity.
  - intros q Hq. rewrite (amp_ng S) by (auto using GS). rewrite (fim_ng S GS) by auto. ring.
Qed.
(** signs of the reconstructed half *)
Definition sg (k : nat) : R := if (k mod n <? h)%nat then 1 else -1.
Lemma gherm_sg Y k : gherm T n Y k = (fst (nth (qi T n k) Y (0, 0)), sg k * snd (nth (qi T n k) Y (0, 0))).
Proof. unfold gherm, qi, sg, conj. destruct (_ <? _)%nat; [|f_equal; ring]. rewrite Rmult_1_l. unfold stored. destruct (nth _ Y (0, 0)). reflexivity. Qed.
Lemma sg_abs k : Rabs (sg k) = 1.
Proof. unfold sg. destruct (_ <? _)%nat; [apply Rabs_R1|]. rewrite Rabs_left; lra. Qed.
Lemma herm_XF k : (k < N)%nat ->
  Rabs (fst (gherm T n XF k) - sF k * fst (gherm T n WF k)) <= u * Rabs (sF k * fst (gherm T n WF k)) + t /\
  Rabs (snd (gherm T n XF k) - sF k * snd (gherm T n WF k)) <= u * Rabs (sF k * snd (gherm T n WF k)) + t.
Proof.
  intros Hk. rewrite !gherm_sg. cbn [fst snd]. destruct (HX k Hk) as [A B]. split; [exact A|].
  replace (sg k * _ - _) with (sg k * (snd (nth (qi T n k) XF (0, 0)) - sF k * snd (nth (qi T n k) WF (0, 0)))) by ring.
  replace (sF k * (sg k * snd (nth (qi T n k) WF (0, 0)))) with (sg k * (sF k * snd (nth (qi T n k) WF (0, 0)))) by ring.
  rewrite !(Rabs_mult (sg k)), sg_abs, !Rmult_1_l. exact B.
Qed.
Lemma sqrt2N : sqrt (2 * Nr) <= 3 / 2 * r.
Proof. rewrite sqrt_mult by (pose proof Nr1; lra). apply Rmult_le_compat_r; [apply sqrt_pos|]. rewrite <- (sqrt_square (3 / 2)) by lra. apply sqrt_le_1; lra. Qed.
Lemma stageC : fd T n XF X <= 105 / 100 * (e * r * nu) + 6 * (r * (Nr * tau)).
Proof.
  pose proof r1 as R1. pose proof Nr1 as N1. pose proof (rn_nn N (nthR noise)) as V. pose proof (cn_nn N (gherm T n WF)) as WN. fold (fn T n WF) in WN. pose proof e2s as ES.
  assert (NT : 0 <= Nr * tau) by (apply Rmult_le_pos; lra).
  set (P := fun k => (sF k * fst (gherm T n WF k), sF k * snd (gherm T n WF k))).
  set (Q := fun k => (amp S (nthR c) k * fst (gherm T n WF k), amp S (nthR c) k * snd (gherm T n WF k))).
  unfold fd. eapply Rle_trans; [apply (cn_sub_tri N _ P)|]. 
  assert (A1 : cn N (fun k => csub (gherm T n XF k) (P k)) <= u * (11 / 10 * r * fn T n WF) + 3 / 2 * r * t).
  { assert (Z : cn N (fun k => csub (gherm T n XF k) (P k)) <= u * cn N P + sqrt (2 * Nr) * t).
    { apply cn_err; [lra|lra|]. intros k Hk. unfold csub, P. cbn [fst snd]. apply herm_XF; auto. }
    assert (Y : cn N P <= 11 / 10 * r * fn T n WF).
    { apply cn_mono; [nra|]. intros k Hk. unfold P. cbn [fst snd]. rewrite !Rabs_mult. destruct (HsF k Hk) as [_ B]. split; apply Rmult_le_compat_r; auto; apply Rabs_pos. }
    assert (u * cn N P <= u * (11 / 10 * r * fn T n WF)) by (apply Rmult_le_compat_l; lra).
    assert (sqrt (2 * Nr) * t <= 3 / 2 * r * t) by (apply Rmult_le_compat_r; [lra|apply sqrt2N]). lra. }
  assert (A2 : cn N (fun k => csub (P k) (gherm T n X k)) <= 102 / 100 * (e * r) * fn T n WF + r * (10 * eps * nu + 3 * (Nr * tau))).
  { eapply Rle_trans; [apply (cn_sub_tri N _ Q)|]. apply Rplus_le_compat.
    - apply cn_mono; [nra|]. intros k Hk. unfold csub, P, Q. cbn [fst snd].
      rewrite <- !Rmult_minus_distr_r, !Rabs_mult. destruct (HsF k Hk) as [B _]. split; apply Rmult_le_compat_r; auto; apply Rabs_pos.
    - apply Rle_trans with (r * fd T n WF (gr2c T n x)); [|apply Rmult_le_compat_l; [lra|exact HW]].
      apply cn_mono; [lra|]. intros k Hk. rewrite herm_X by auto. unfold csub, Q. cbn [fst snd]. rewrite <- !Rmult_minus_distr_l, !Rabs_mult.
      destruct (amp_bound k). rewrite (Rabs_right (amp S (nthR c) k)) by lra. split; apply Rmult_le_compat_r; auto; apply Rabs_pos. }
  assert (UR : u * (11 / 10 * r * fn T n WF) <= 11 / 10000 * (e * r * fn T n WF)).
  { assert (u <= e / 1000) by lra. assert (0 <= 11 / 10 * r * fn T n WF) by (apply Rmult_le_pos; lra).
    apply Rle_trans with (e / 1000 * (11 / 10 * r * fn T n WF)); [apply Rmult_le_compat_r; lra|right; field]. }
  assert (ER : 0 <= e * r) by (apply Rmult_le_pos; lra). assert (E1 : e * r <= r / 1000) by (apply Rle_trans with (1 / 1000 * r); [apply Rmult_le_compat_r; lra|lra]).
  assert (W1 : e * r * fn T n WF <= 101 / 100 * (e * r * nu) + 3 / 1000 * (r * (Nr * tau))).
  { apply Rle_trans with (e * r * (101 / 100 * nu + 3 * (Nr * tau))); [apply Rmult_le_compat_l; lra|].
    assert (e * r * (Nr * tau) <= r / 1000 * (Nr * tau)) by (apply Rmult_le_compat_r; lra). 
    replace (e * r * (101 / 100 * nu + 3 * (Nr * tau))) with (101 / 100 * (e * r * nu) + 3 * (e * r * (Nr * tau))) by ring. lra. }
  assert (W2 : r * (10 * eps * nu) <= e * r * nu / 100). { pose proof (eps_nu noise). apply Rle_trans with (r * (e / 100 * nu)); [apply Rmult_le_compat_l; lra|right; field]. }
  assert (W3 : 3 / 2 * r * t <= 3 / 2 * (r * (Nr * tau))).
  { assert (r * t <= r * (Nr * tau)); [|lra]. apply Rmult_le_compat_l; [lra|]. apply Rle_trans with (1 * tau); [lra|apply Rmult_le_compat_r; lra]. }
  rewrite Rmult_plus_distr_l in A2. assert (W4 : 0 <= e * r * nu) by (apply Rmult_le_pos; lra). assert (W5 : 0 <= r * (Nr * tau)) by (apply Rmult_le_pos; lra).
  replace (r * (3 * (Nr * tau))) with (3 * (r * (Nr * tau))) in A2 by ring.
  replace (102 / 100 * (e * r) * fn T n WF) with (102 / 100 * (e * r * fn T n WF)) in A2 by ring. lra.
Qed.
Lemma X_norm : fn T n X <= r * nu.
Proof.
  rewrite <- (W_norm noise Hlen). unfold fn. apply cn_mono; [pose proof r1; lra|]. intros k Hk. rewrite herm_X by auto. cbn [fst snd]. rewrite !Rabs_mult.
  destruct (amp_bound k). rewrite (Rabs_right (amp S (nthR c) k)) by lra. split; apply Rmult_le_compat_r; auto; apply Rabs_pos.
Qed.
Lemma XF_norm : fn T n XF <= 11 / 10 * (r * nu) + 6 * (r * (Nr * tau)).
Proof.
  assert (D : fn T n XF <= fn T n X + fd T n XF X) by exact (cn_near N (gherm T n XF) (gherm T n X)).
  assert (0 <= r * (Nr * tau)) by (pose proof r1; pose proof Nr1; apply Rmult_le_pos; [lra|apply Rmult_le_pos; lra]).
  pose proof stageC. pose proof X_norm. pose proof r1. pose proof (rn_nn N (nthR noise)) as V. assert (RV : 0 <= r * nu) by (apply Rmult_le_pos; lra).
  assert (e * r * nu <= 1 / 1000 * (r * nu)) by (rewrite Rmult_assoc; apply Rmult_le_compat_r; lra). lra.
Qed.
(** ** the field *)
Section Out.
Variables (yF outF : list R).
Hypothesis HyF : rn N (fun j => nthR yF j - nthR (gc2r T n XF) j) <= eps * (r * fn T n XF) + tau.
Hypothesis HoF : forall j, (j < N)%nat -> Rabs (nthR outF j - nthR yF j * / r) <= 8 * u * (Rabs (nthR yF j) * / r) + t.
Notation y := (gc2r T n X).

Lemma s2 : sqrt 2 <= 1415 / 1000. Proof. rewrite <- (sqrt_square (1415 / 1000)) by lra. apply sqrt_le_1; lra. Qed.
Lemma stageD : rn N (fun j => nthR yF j - nthR y j) <= 149 / 100 * (e * (Nr * nu)) + 11 * (Nr * (Nr * tau)).
Proof.
  pose proof r1 as R1. pose proof Nr1 as N1. pose proof (rn_nn N (nthR noise)) as V. pose proof e2s as ES. pose proof s2 as S2. pose proof (sqrt_pos 2) as S2p.
  assert (NT : 0 <= Nr * tau) by (apply Rmult_le_pos; lra).
  assert (A : rn N (fun j => nthR yF j - nthR y j) <= rn N (fun j => nthR yF j - nthR (gc2r T n XF) j) + rn N (fun j => nthR (gc2r T n XF) j - nthR y j)).
  { eapply Rle_trans; [|apply rn_tri]. right. apply rn_ext. intros. ring. }
  pose proof (gc2r_dist T n GT Hn XF X) as B. pose proof stageC as C. pose proof XF_norm as D.
  assert (B1 : r * fd T n XF X <= 105 / 100 * (e * (Nr * nu)) + 6 * (Nr * (Nr * tau))).
  { apply Rle_trans with (r * (105 / 100 * (e * r * nu) + 6 * (r * (Nr * tau)))); [apply Rmult_le_compat_l; lra|]. right. transitivity (105 / 100 * (e * ((r * r) * nu)) + 6 * ((r * r) * (Nr * tau))); [ring|rewrite rr; ring]. }
  assert (D1 : r * fn T n XF <= 11 / 10 * (Nr * nu) + 6 * (Nr * (Nr * tau))).
  { apply Rle_trans with (r * (11 / 10 * (r * nu) + 6 * (r * (Nr * tau)))); [apply Rmult_le_compat_l; lra|]. right. transitivity (11 / 10 * ((r * r) * nu) + 6 * ((r * r) * (Nr * tau))); [ring|rewrite rr; ring]. }
  assert (Q1 : 0 <= Nr * nu) by (apply Rmult_le_pos; lra). assert (Q2 : 0 <= Nr * (Nr * tau)) by (apply Rmult_le_pos; lra). assert (Q3 : 0 <= e * (Nr * nu)) by (apply Rmult_le_pos; lra).
  assert (B2 : sqrt 2 * (r * fd T n XF X) <= 1415 / 1000 * (105 / 100 * (e * (Nr * nu)) + 6 * (Nr * (Nr * tau)))).
  { apply Rle_trans with (sqrt 2 * (105 / 100 * (e * (Nr * nu)) + 6 * (Nr * (Nr * tau)))); [apply Rmult_le_compat_l; lra|apply Rmult_le_compat_r; lra]. }
  assert (D2 : eps * (r * fn T n XF) <= e / 1000 * (11 / 10 * (Nr * nu) + 6 * (Nr * (Nr * tau)))).
  { apply Rle_trans with (eps * (11 / 10 * (Nr * nu) + 6 * (Nr * (Nr * tau)))); [apply Rmult_le_compat_l; lra|apply Rmult_le_compat_r; lra]. }
  assert (D3 : e / 1000 * (6 * (Nr * (Nr * tau))) <= Nr * (Nr * tau)) by (apply Rle_trans with (1 / 1000 * (6 * (Nr * (Nr * tau)))); [apply Rmult_le_compat_r; lra|lra]).
  assert (D4 : tau <= Nr * (Nr * tau)). { apply Rle_trans with (1 * (1 * tau)); [lra|]. apply Rmult_le_compat; try lra. apply Rmult_le_compat_r; lra. }
  replace (e / 1000 * (11 / 10 * (Nr * nu) + 6 * (Nr * (Nr * tau)))) with (11 / 10000 * (e * (Nr * nu)) + e / 1000 * (6 * (Nr * (Nr * tau)))) in D2 by field.
  lra.
Qed.
Lemma yF_norm : rn N (nthR yF) <= 3 / 2 * (Nr * nu) + 11 * (Nr * (Nr * tau)).
Proof.
  pose proof r1 as R1. pose proof Nr1 as N1. pose proof (rn_nn N (nthR noise)) as V. pose proof s2 as S2. pose proof (sqrt_pos 2) as S2p.
  assert (A : rn N (nthR yF) <= rn N (nthR y) + rn N (fun j => nthR yF j - nthR y j)).
  { eapply Rle_trans; [|apply rn_tri]. right. apply rn_ext. intros. ring. }
  pose proof (gc2r_norm T n GT Hn X) as B. pose proof X_norm as C. pose proof stageD as D.
  assert (C1 : r * fn T n X <= Nr * nu) by (apply rmul; exact C).
  assert (Q1 : 0 <= Nr * nu) by (apply Rmult_le_pos; lra).
  assert (C2 : sqrt 2 * (r * fn T n X) <= 1415 / 1000 * (Nr * nu)). { apply Rle_trans with (sqrt 2 * (Nr * nu)); [apply Rmult_le_compat_l; lra|apply Rmult_le_compat_r; lra]. }
  assert (e * (Nr * nu) <= 1 / 1000 * (Nr * nu)) by (apply Rmult_le_compat_r; lra). lra.
Qed.
Lemma stageE : rn N (fun j => nthR outF j - nthR y j * / r) <= 2 * (e * r * nu) + 13 * (Nr * (Nr * tau)).
Proof.
  pose proof r1 as R1. pose proof Nr1 as N1. pose proof (rn_nn N (nthR noise)) as V. pose proof e2s as ES. pose proof ir as IR.
  assert (A : rn N (fun j => nthR outF j - nthR y j * / r) <= rn N (fun j => nthR outF j - nthR yF j * / r) + rn N (fun j => / r * (nthR yF j - nthR y j))).
  { eapply Rle_trans; [|apply rn_tri]. right. apply rn_ext. intros. ring. }
  rewrite rn_scal, (Rabs_right (/ r)) in A by lra.
  assert (B : rn N (fun j => nthR outF j - nthR yF j * / r) <= 8 * u * / r * rn N (nthR yF) + r * t).
  { apply rn_err; [apply Rmult_le_pos; lra|lra|]. intros j Hj. eapply Rle_trans; [apply HoF; auto|]. right. ring. }
  pose proof yF_norm as C. pose proof stageD as D.
  assert (F : forall z, / r * (Nr * z) = r * z) by (intros z; transitivity (/ r * (r * r * z)); [rewrite rr; reflexivity|field; lra]).
  assert (D1 : / r * rn N (fun j => nthR yF j - nthR y j) <= 149 / 100 * (e * r * nu) + 11 * (r * (Nr * tau))).
  { apply Rle_trans with (/ r * (149 / 100 * (e * (Nr * nu)) + 11 * (Nr * (Nr * tau)))); [apply Rmult_le_compat_l; lra|].
    replace (/ r * (149 / 100 * (e * (Nr * nu)) + 11 * (Nr * (Nr * tau)))) with (149 / 100 * e * (/ r * (Nr * nu)) + 11 * (/ r * (Nr * (Nr * tau)))) by ring. rewrite !F. right. ring. }
  assert (NT : 0 <= Nr * tau) by (apply Rmult_le_pos; lra). assert (W5 : 0 <= r * (Nr * tau)) by (apply Rmult_le_pos; lra). assert (RV : 0 <= r * nu) by (apply Rmult_le_pos; lra).
  assert (C1 : 8 * u * / r * rn N (nthR yF) <= 8 * (e / 1000) * (3 / 2 * (r * nu) + 11 * (r * (Nr * tau)))).
  { rewrite Rmult_assoc. assert (Z : / r * rn N (nthR yF) <= 3 / 2 * (r * nu) + 11 * (r * (Nr * tau))).
    { apply Rle_trans with (/ r * (3 / 2 * (Nr * nu) + 11 * (Nr * (Nr * tau)))); [apply Rmult_le_compat_l; lra|].
      rewrite Rmult_plus_distr_l. replace (/ r * (3 / 2 * (Nr * nu))) with (3 / 2 * (/ r * (Nr * nu))) by ring. replace (/ r * (11 * (Nr * (Nr * tau)))) with (11 * (/ r * (Nr * (Nr * tau)))) by ring. rewrite !F. lra. }
    apply Rle_trans with (8 * u * (3 / 2 * (r * nu) + 11 * (r * (Nr * tau)))); [apply Rmult_le_compat_l; lra|apply Rmult_le_compat_r; lra]. }
  assert (RN : r * (Nr * tau) <= Nr * (Nr * tau)). { apply Rmult_le_compat_r; [lra|]. apply Rle_trans with (r * r); [|rewrite rr; lra]. rewrite <- (Rmult_1_l r) at 1. apply Rmult_le_compat_r; lra. }
  assert (C2 : 8 * (e / 1000) * (11 * (r * (Nr * tau))) <= r * (Nr * tau)). { apply Rle_trans with (8 / 1000 * (11 * (r * (Nr * tau)))); [apply Rmult_le_compat_r; lra|lra]. }
  assert (C3 : r * t <= r * (Nr * tau)). { apply Rmult_le_compat_l; [lra|]. apply Rle_trans with (1 * tau); [lra|apply Rmult_le_compat_r; lra]. }
  rewrite Rmult_plus_distr_l in C1. replace (8 * (e / 1000) * (3 / 2 * (r * nu))) with (12 / 1000 * (e * r * nu)) in C1 by field.
  assert (0 <= e * r * nu) by (rewrite Rmult_assoc; apply Rmult_le_pos; lra). lra.
Qed.
Lemma field_y j : (j < N)%nat -> nthR y j * / r = rsum N (fun l => ker S (amp S (nthR c)) j l * nth l noise 0).
Proof. intros Hj. unfold nthR at 1. apply (field_nth T n GT Hn c noise); auto. intros k Hk Hm. apply stored_X; auto. Qed.
End Out.
End Prod.
End E.
