(** Variograms in exact arithmetic. *)
From Coq Require Import ZArith List Bool String Ascii Lia Reals Lra Psatz.
From Coquelicot Require Import Coquelicot.
From Verif Require Import Base Arith RealArith M_Variogram S_Vario P_RBounds P_Cov.
Import ListNotations.
Open Scope R_scope.

(** ** the distance *)
Section Dist.
Variables (t : vtype) (pw rx ry rz a d std : R).
Hypothesis (Hx : rx <> 0) (Hy : ry <> 0) (Hz : rz <> 0).
Let v := @new_variogram Rarith t pw rx ry rz a d std.

Lemma Distance3_ndist x y z : @Distance3 Rarith v x y z = ndist rx ry rz a d (x, y, z).
Proof.
  unfold Distance3, ndist. cbn. f_equal. field. repeat split; auto.
Qed.
Lemma Distance2_3 x y : @Distance2 Rarith v x y = @Distance3 Rarith v x y 0.
Proof. unfold Distance3, Distance2. cbn [fsqrt Rarith add mul]. f_equal. cbn. ring. Qed.
Lemma Distance1_3 x : @Distance1 Rarith v x = @Distance3 Rarith v x 0 0.
Proof. unfold Distance3, Distance1. cbn [fsqrt Rarith add mul]. f_equal. cbn. ring. Qed.
End Dist.

Lemma any_Distance2_3 (v : variogram Rarith) x y : @Distance2 Rarith v x y = @Distance3 Rarith v x y 0.
Proof. unfold Distance3, Distance2. cbn. f_equal. ring. Qed.
Lemma any_Distance1_3 (v : variogram Rarith) x : @Distance1 Rarith v x = @Distance3 Rarith v x 0 0.
Proof. unfold Distance3, Distance1. cbn. f_equal. ring. Qed.
Lemma any_Distance1_2 (v : variogram Rarith) x : @Distance1 Rarith v x = @Distance2 Rarith v x 0.
Proof. unfold Distance2, Distance1. cbn. f_equal. ring. Qed.

(** the distance is a norm *)
Lemma ndist_nonneg rx ry rz a d h : 0 <= ndist rx ry rz a d h.
Proof. apply sqrt_pos. Qed.
Lemma ndist_scale rx ry rz a d k h : rx <> 0 -> ry <> 0 -> rz <> 0 ->
  ndist rx ry rz a d (scale k h) = Rabs k * ndist rx ry rz a d h.
Proof.
  intros Hx Hy Hz. destruct h as ((x, y), z). unfold ndist, scale, dot, main_axis, perp_axis, third_axis.
  rewrite <- (sqrt_Rsqr_abs k). rewrite <- sqrt_mult_alt by (apply Rle_0_sqr). f_equal. unfold Rsqr. field. auto.
Qed.
Lemma sq3 a b c : 0 <= a ^ 2 + b ^ 2 + c ^ 2.
Proof. pose proof (pow2_ge_0 a). pose proof (pow2_ge_0 b). pose proof (pow2_ge_0 c). lra. Qed.
Lemma norm2_triangle a b c x y z : sqrt ((a + x) ^ 2 + (b + y) ^ 2 + (c + z) ^ 2) <= sqrt (a ^ 2 + b ^ 2 + c ^ 2) + sqrt (x ^ 2 + y ^ 2 + z ^ 2).
Proof.
  pose proof (sqrt_pos (a ^ 2 + b ^ 2 + c ^ 2)) as P1. pose proof (sqrt_pos (x ^ 2 + y ^ 2 + z ^ 2)) as P2.
  apply Rsqr_incr_0_var; [|lra]. rewrite Rsqr_sqrt by apply sq3. rewrite Rsqr_plus, !Rsqr_sqrt by apply sq3.
  enough (a * x + b * y + c * z <= sqrt (a ^ 2 + b ^ 2 + c ^ 2) * sqrt (x ^ 2 + y ^ 2 + z ^ 2)) by nra.
  rewrite <- sqrt_mult_alt by apply sq3. apply Rle_trans with (Rabs (a * x + b * y + c * z)); [apply Rle_abs|].
  rewrite <- sqrt_Rsqr_abs. apply sqrt_le_1_alt. unfold Rsqr.
  pose proof (pow2_ge_0 (a * y - b * x)). pose proof (pow2_ge_0 (a * z - c * x)). pose proof (pow2_ge_0 (b * z - c * y)). nra.
Qed.
Lemma ndist_triangle rx ry rz a d g h : rx <> 0 -> ry <> 0 -> rz <> 0 ->
  ndist rx ry rz a d (plus3 g h) <= ndist rx ry rz a d g + ndist rx ry rz a d h.
Proof.
  intros Hx Hy Hz. unfold ndist. 
  assert (E : forall u r, r <> 0 -> dot u (plus3 g h) / r = dot u g / r + dot u h / r).
  { intros ((u1, u2), u3) r Hr. destruct g as ((g1, g2), g3), h as ((h1, h2), h3). unfold dot, plus3. field. auto. }
  rewrite !E by auto. apply norm2_triangle.
Qed.
Lemma sc2 a : sin a ^ 2 = 1 - cos a ^ 2.
Proof. pose proof (sin2_cos2 a) as H. unfold Rsqr in H. lra. Qed.
Lemma ndist_zero rx ry rz a d h : rx <> 0 -> ry <> 0 -> rz <> 0 -> ndist rx ry rz a d h = 0 -> h = (0, 0, 0).
Proof.
  intros Hx Hy Hz. destruct h as ((x, y), z). unfold ndist. intros H. apply sqrt_eq_0 in H; [|apply sq3].
  assert (Z : forall q r, r <> 0 -> q / r = 0 -> q = 0).
  { intros q r Hr E. replace q with (q / r * r) by (field; auto). rewrite E. ring. }
  assert (H1 : dot (main_axis a d) (x, y, z) = 0) by (apply (Z _ rx); auto; nra).
  assert (H2 : dot (perp_axis a) (x, y, z) = 0) by (apply (Z _ ry); auto; nra).
  assert (H3 : dot (third_axis a d) (x, y, z) = 0) by (apply (Z _ rz); auto; nra).
  unfold dot, main_axis, perp_axis, third_axis in *. pose proof (sc2 a) as Sa. pose proof (sc2 d) as Sd.
  set (p := cos a * x + sin a * y) in *.
  assert (P : p = 0). 
  { replace p with (cos d * (cos d * p + sin d * z) - sin d * (- sin d * p + cos d * z)) by (ring_simplify; rewrite Sd; ring).
    replace (cos d * p + sin d * z) with 0 by (rewrite <- H1; unfold p; ring).
    replace (- sin d * p + cos d * z) with 0 by (rewrite <- H3; unfold p; ring). ring. }
  assert (E1 : x = 0).
  { replace x with (cos a * p - sin a * (- sin a * x + cos a * y + 0 * z)) by (unfold p; ring_simplify; rewrite Sa; ring). rewrite P, H2. ring. }
  assert (E2 : y = 0).
  { replace y with (sin a * p + cos a * (- sin a * x + cos a * y + 0 * z)) by (unfold p; ring_simplify; rewrite Sa; ring). rewrite P, H2. ring. }
  subst x y. assert (E3 : z = 0).
  { replace z with (sin d * (cos d * cos a * 0 + cos d * sin a * 0 + sin d * z) + cos d * (- (sin d * cos a) * 0 + - (sin d * sin a) * 0 + cos d * z))
      by (ring_simplify; rewrite Sd; ring). rewrite H1, H3. ring. }
  subst. reflexivity.
Qed.

(** along the axes *)
Lemma ndist_main rx ry rz a d s : 0 < rx -> ndist rx ry rz a d (scale s (main_axis a d)) = Rabs s / rx.
Proof.
  intros Hx. unfold ndist.
  replace (dot (main_axis a d) (scale s (main_axis a d))) with s.
  2:{ unfold dot, scale, main_axis. pose proof (sc2 a). pose proof (sc2 d). ring_simplify. rewrite H, H0. ring. }
  replace (dot (perp_axis a) (scale s (main_axis a d))) with 0 by (unfold dot, scale, main_axis, perp_axis; ring).
  replace (dot (third_axis a d) (scale s (main_axis a d))) with 0.
  2:{ unfold dot, scale, main_axis, third_axis. pose proof (sc2 a). ring_simplify. rewrite H. ring. }
  unfold Rdiv. rewrite !Rmult_0_l, !pow_ne_zero, !Rplus_0_r by lia.
  replace ((s * / rx) ^ 2) with (Rsqr (s * / rx)) by (unfold Rsqr; ring). rewrite sqrt_Rsqr_abs, Rabs_mult.
  rewrite (Rabs_right (/ rx)); auto. left. apply Rinv_0_lt_compat. auto.
Qed.
Lemma ndist_perp rx ry rz a d s : 0 < ry -> ndist rx ry rz a d (scale s (perp_axis a)) = Rabs s / ry.
Proof.
  intros Hx. unfold ndist.
  replace (dot (main_axis a d) (scale s (perp_axis a))) with 0 by (unfold dot, scale, main_axis, perp_axis; ring).
  replace (dot (perp_axis a) (scale s (perp_axis a))) with s.
  2:{ unfold dot, scale, perp_axis. pose proof (sc2 a). ring_simplify. rewrite H. ring. }
  replace (dot (third_axis a d) (scale s (perp_axis a))) with 0 by (unfold dot, scale, perp_axis, third_axis; ring).
  unfold Rdiv. rewrite !Rmult_0_l, !pow_ne_zero, Rplus_0_r, Rplus_0_l by lia.
  replace ((s * / ry) ^ 2) with (Rsqr (s * / ry)) by (unfold Rsqr; ring). rewrite sqrt_Rsqr_abs, Rabs_mult.
  rewrite (Rabs_right (/ ry)); auto. left. apply Rinv_0_lt_compat. auto.
Qed.
Lemma ndist_third rx ry rz a d s : 0 < rz -> ndist rx ry rz a d (scale s (third_axis a d)) = Rabs s / rz.
Proof.
  intros Hx. unfold ndist.
  replace (dot (main_axis a d) (scale s (third_axis a d))) with 0.
  2:{ unfold dot, scale, main_axis, third_axis. pose proof (sc2 a). ring_simplify. rewrite H. ring. }
  replace (dot (perp_axis a) (scale s (third_axis a d))) with 0 by (unfold dot, scale, third_axis, perp_axis; ring).
  replace (dot (third_axis a d) (scale s (third_axis a d))) with s.
  2:{ unfold dot, scale, third_axis. pose proof (sc2 a). pose proof (sc2 d). ring_simplify. rewrite H, H0. ring. }
  unfold Rdiv. rewrite !Rmult_0_l, !pow_ne_zero, !Rplus_0_l by lia.
  replace ((s * / rz) ^ 2) with (Rsqr (s * / rz)) by (unfold Rsqr; ring). rewrite sqrt_Rsqr_abs, Rabs_mult.
  rewrite (Rabs_right (/ rz)); auto. left. apply Rinv_0_lt_compat. auto.
Qed.

(** ** correlation functions *)
Lemma Rpow_nat x n : 0 <= x -> (0 < n)%nat -> Rpow x (INR n) = x ^ n.
Proof.
  intros Hx Hn. unfold Rpow. destruct (Rlt_dec 0 x).
  - apply Rpower_pow. auto.
  - assert (x = 0) by lra. subst. assert (INR n <> 0) by (apply not_0_INR; lia).
    destruct (Req_EM_T (INR n) 0); [contradiction|]. rewrite pow_ne_zero by lia. reflexivity.
Qed.

Lemma Corr1D_fun (v : variogram Rarith) d : 0 <= d -> @Corr1D Rarith v d = corr_fun (vt v) (vpower v) d.
Proof.
  intros Hd. unfold Corr1D, corr_fun. destruct (vt v); cbn.
  - lra.
  - f_equal. lra.
  - unfold Rltb. destruct (Rlt_dec d (1 / 1)), (Rlt_dec d 1); try lra.
  - f_equal. lra.
  - f_equal. lra.
  - f_equal; lra.
  - f_equal; lra.
  - replace (2 / 1) with (INR 2) by (simpl; lra). replace (3 / 1) with (INR 3) by (simpl; lra).
    rewrite !Rpow_nat by (try lia; lra). f_equal. simpl. field.
  - lra.
Qed.

Lemma Rpow_nonneg x y : 0 <= Rpow x y.
Proof. unfold Rpow. destruct (Rlt_dec 0 x); [left; apply exp_pos|]. destruct (Req_EM_T y 0); lra. Qed.
Lemma Rpow_mono x x' y : 0 <= x <= x' -> 0 < y -> Rpow x y <= Rpow x' y.
Proof.
  intros [H0 H1] Hy. destruct H1 as [H1| ->]; [|lra]. destruct (Req_dec x 0) as [->|].
  - rewrite Rpow_0_l by lra. apply Rpow_nonneg.
  - unfold Rpow. destruct (Rlt_dec 0 x); [|lra]. destruct (Rlt_dec 0 x'); [|lra]. left. unfold Rpower.
    apply exp_increasing. apply Rmult_lt_compat_l; auto. apply ln_increasing; auto.
Qed.

(** a function with non-positive derivative does not increase *)
Lemma decr_on (f f' : R -> R) x y : 0 <= x <= y ->
  (forall t, 0 <= t -> is_derive f t (f' t)) -> (forall t, 0 <= t -> f' t <= 0) -> f y <= f x.
Proof.
  intros [H0 [H1| ->]] Hd Hn; [|lra].
  destruct (MVT_gen f x y f') as (c & Hc & E).
  - intros t Ht. apply Hd. rewrite Rmin_left in Ht by lra. lra.
  - intros t Ht. rewrite Rmin_left in Ht by lra. apply derivable_continuous_pt. exists (f' t). apply is_derive_Reals, Hd. lra.
  - rewrite Rmin_left in Hc by lra. specialize (Hn c ltac:(lra)). nra.
Qed.
Lemma mat32_decr x y : 0 <= x <= y -> exp (- y) * (1 + y) <= exp (- x) * (1 + x).
Proof.
  intros H. apply (decr_on (fun s => exp (- s) * (1 + s)) (fun s => - (s * exp (- s)))); auto.
  - intros t Ht. auto_derive; auto. ring.
  - intros t Ht. pose proof (exp_pos (- t)). nra.
Qed.
Lemma mat52_decr x y : 0 <= x <= y -> exp (- y) * (1 + y + y ^ 2 / 3) <= exp (- x) * (1 + x + x ^ 2 / 3).
Proof.
  intros H. apply (decr_on (fun s => exp (- s) * (1 + s + s ^ 2 / 3)) (fun s => - (exp (- s) * ((s + s ^ 2) / 3)))); auto.
  - intros t Ht. auto_derive; auto. field.
  - intros t Ht. pose proof (exp_pos (- t)). assert (0 <= (t + t ^ 2) / 3) by nra. nra.
Qed.
Lemma mat72_decr x y : 0 <= x <= y ->
  exp (- y) * (1 + y + 2 / 5 * y ^ 2 + y ^ 3 / 15) <= exp (- x) * (1 + x + 2 / 5 * x ^ 2 + x ^ 3 / 15).
Proof.
  intros H. apply (decr_on (fun s => exp (- s) * (1 + s + 2 / 5 * s ^ 2 + s ^ 3 / 15))
    (fun s => - (exp (- s) * (s / 5 + s ^ 2 / 5 + s ^ 3 / 15)))); auto.
  - intros t Ht. auto_derive; auto. field.
  - intros t Ht. pose proof (exp_pos (- t)). assert (0 <= t ^ 2) by nra. assert (0 <= t ^ 3) by (apply pow_le; lra).
    assert (0 <= t / 5 + t ^ 2 / 5 + t ^ 3 / 15) by lra. nra.
Qed.

Lemma corr_fun_decr t p x y : 0 <= x <= y -> 0 < p -> corr_fun t p y <= corr_fun t p x.
Proof.
  intros H Hp. destruct t; cbn [corr_fun]; cbv zeta.
  - lra.
  - apply exp_le_mono. lra.
  - assert (E : forall u, 1 - 3 / 2 * u + 1 / 2 * u ^ 3 = (1 - u) ^ 2 * (u + 2) / 2) by (intros; field).
    destruct (Rlt_dec y 1), (Rlt_dec x 1); try lra.
    + enough (0 <= (y - x) * (3 - (x ^ 2 + x * y + y ^ 2))) by nra. apply Rmult_le_pos; nra.
    + rewrite E. assert (0 <= (1 - x) ^ 2) by apply pow2_ge_0. nra.
  - apply exp_le_mono. assert (x ^ 2 <= y ^ 2) by (apply pow_incr; lra). lra.
  - apply exp_le_mono. pose proof (Rpow_mono x y p H Hp). lra.
  - apply mat32_decr. lra.
  - apply mat52_decr. lra.
  - apply mat72_decr. lra.
  - lra.
Qed.
Lemma corr_fun_0 t p : t <> N_TYPES -> 0 < p -> corr_fun t p 0 = 1.
Proof.
  intros Hn Hp. destruct t; cbn [corr_fun]; cbv zeta; try congruence.
  all: try (destruct (Rlt_dec 0 1); lra).
  all: match goal with |- context [exp ?x] => replace x with 0 by (rewrite ?Rpow_0_l by lra; ring) end; rewrite exp_0; field.
Qed.
Lemma corr_fun_nonneg t p d : 0 <= d -> 0 <= corr_fun t p d.
Proof.
  intros Hd. destruct t; cbn [corr_fun]; cbv zeta; try lra; try (left; apply exp_pos).
  - destruct (Rlt_dec d 1); [|lra]. replace (1 - 3 / 2 * d + 1 / 2 * d ^ 3) with ((1 - d) ^ 2 * (d + 2) / 2) by field.
    assert (0 <= (1 - d) ^ 2) by apply pow2_ge_0. nra.
  - apply Rmult_le_pos; [left; apply exp_pos|lra].
  - apply Rmult_le_pos; [left; apply exp_pos|nra].
  - apply Rmult_le_pos; [left; apply exp_pos|]. assert (0 <= (6877 / 1000 * d) ^ 2) by (apply pow_le; lra).
    assert (0 <= (6877 / 1000 * d) ^ 3) by (apply pow_le; lra). lra.
Qed.
Lemma corr_fun_le1 t p d : 0 <= d -> 0 < p -> corr_fun t p d <= 1.
Proof.
  intros Hd Hp. destruct (match t with N_TYPES => left eq_refl | _ => right I end : {t = N_TYPES} + {True}).
  - subst. simpl. lra.
  - apply Rle_trans with (corr_fun t p 0); [apply corr_fun_decr; lra|]. destruct t; try (rewrite corr_fun_0 by (try congruence; auto); lra). simpl; lra.
Qed.

(** ** created objects *)
Definition lookup_type (s : string) : option vtype := match Uppercase s with Ok u => Some (type_of_name u) | _ => None end.

Lemma type_of_name_real u : type_of_name u <> N_TYPES.
Proof. unfold type_of_name. repeat match goal with |- context [String.eqb ?a ?b] => destruct (String.eqb a b) end; discriminate. Qed.

Lemma created_new s main perp depth a d pw v : @CreateVariogram Rarith s main perp depth a d pw = Ok v ->
  exists t pw', v = @new_variogram Rarith t pw' main (or_main main perp) (or_main main depth) (radians a) (radians d) 1 /\
    t <> N_TYPES /\ (t = GENERAL_EXPONENTIAL -> pw' = pw) /\ vt v = t /\ lookup_type s = Some t.
Proof.
  unfold CreateVariogram, lookup_type. destruct (Uppercase s) as [u| | |]; cbn [bind]; try discriminate.
  assert (E : forall r, (if flt Rarith r (lit Rarith 0 0) then main else r) = or_main main r).
  { intros r. unfold or_main. cbn. unfold Rltb. destruct (Rlt_dec r (0 / 1)), (Rlt_dec r 0); auto; lra. }
  rewrite !E. pose proof (type_of_name_real u) as Hn. unfold Create.
  assert (E1 : lit Rarith 1 0 = 1) by (cbn; lra). rewrite E1.
  destruct (type_of_name u); try congruence; intros [= <-]; eexists _, _; (split; [reflexivity|]); repeat split; auto; discriminate.
Qed.
