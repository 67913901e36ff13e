(** The mixture of the central branches against the normal density, and the mass of the branches. *)
From Coq Require Import ZArith QArith Qreals Reals List Bool Lra Lia.
From Coquelicot Require Import Coquelicot.
From Verif Require Import Base Arith RealArith M_Random S_Normal P_RBounds P_QBounds P_NormEnv P_Norm P_NormDens P_NormMix.
Import ListNotations.
Open Scope R_scope.

(** ** pi *)
Definition qat (a : Q) (n : nat) : Q := Qred (qpow a (2 * n + 1) / inject_Z (Z.of_nat (2 * n + 1)))%Q.
Lemma qat_R a n : Q2R (qat a n) = Ratan_seq (Q2R a) n.
Proof.
  unfold qat, Ratan_seq. rewrite Q2R_Qred, Q2R_div, Q2R_qpow, Q2R_inject, <- INR_IZR_INZ by (apply inject_nz; lia). reflexivity.
Qed.
Definition qpi (n : nat) : Q := (2 * qat (1 # 3) n + qat (1 # 7) n)%Q.
Lemma qpi_R n : Q2R (qpi n) = PI_2_3_7_tg n.
Proof.
  unfold qpi, PI_2_3_7_tg. rewrite Q2R_plus, Q2R_mult, !qat_R. f_equal; [f_equal|].
  - unfold Q2R. simpl. lra.
  - f_equal. unfold Q2R. simpl. lra.
  - f_equal. unfold Q2R. simpl. lra.
Qed.
Fixpoint qpis (n : nat) : Q :=
  match n with O => qpi 0 | S m => Qred (qpis m + (if Nat.even n then qpi n else - qpi n))%Q end.
Lemma qpis_R n : Q2R (qpis n) = sum_f_R0 (tg_alt PI_2_3_7_tg) n.
Proof.
  induction n.
  - cbn [qpis sum_f_R0]. rewrite qpi_R. unfold tg_alt. simpl. ring.
  - cbn [qpis sum_f_R0]. rewrite Q2R_Qred, Q2R_plus, IHn. f_equal. unfold tg_alt.
    destruct (Nat.even (S n)) eqn:E.
    + apply Nat.even_spec in E as [m ->]. rewrite pow_1_even, qpi_R. ring.
    + assert (O : Nat.odd (S n) = true) by (rewrite <- Nat.negb_even, E; reflexivity).
      apply Nat.odd_spec in O as [m Hm]. replace (S n) with (S (2 * m)) by lia. rewrite pow_1_odd, Q2R_opp, qpi_R. ring.
Qed.
Lemma pi_bounds : 3141592653 / 1000000000 <= PI <= 3141592654 / 1000000000.
Proof.
  pose proof (PI_2_3_7_ineq 5) as [L U]. rewrite <- !qpis_R in *.
  assert (Q2R (3141592653 # 4000000000) <= Q2R (qpis (S (2 * 5)))) by (apply Qle_Rle; apply Qle_bool_iff; vm_compute; reflexivity).
  assert (Q2R (qpis (2 * 5)) <= Q2R (3141592654 # 4000000000)) by (apply Qle_Rle; apply Qle_bool_iff; vm_compute; reflexivity).
  set (s := Q2R (qpis (S (2 * 5)))) in *. set (t := Q2R (qpis (2 * 5))) in *. clearbody s t.
  unfold Q2R in *. cbn [Qnum Qden] in *. lra.
Qed.

(** the constant of the normal density *)
Definition phi0 : R := / sqrt (2 * PI).
Lemma phi0_bounds : 3989422801 / 10000000000 <= phi0 <= 3989422807 / 10000000000.
Proof.
  pose proof pi_bounds as P. unfold phi0.
  assert (S0 : 0 < sqrt (2 * PI)) by (apply sqrt_lt_R0; lra).
  assert (SS : sqrt (2 * PI) * sqrt (2 * PI) = 2 * PI) by (apply sqrt_sqrt; lra).
  set (s := sqrt (2 * PI)) in *. clearbody s.
  assert (Hs : 25066282740 / 10000000000 <= s <= 25066282768 / 10000000000) by (split; nra).
  assert (I : s * / s = 1) by (field; lra). assert (0 < / s) by (apply Rinv_0_lt_compat; lra).
  set (i := / s) in *. clearbody i. split; nra.
Qed.
Lemma phi_eq x : phi x = phi0 * exp (- (x * x) / 2).
Proof. unfold phi, phi0. unfold Rdiv. ring. Qed.

(** ** The mixture *)
Definition mix (x : R) : R :=
  8638 / 10000 * dens3 x + (9745 / 10000 - 8638 / 10000) * dens2 x +
  (9973002039 / 10000000000 - 9745 / 10000) * g (A := Rarith) x.

Lemma mixture x : -3 <= x <= 3 -> Rabs (mix x - phi x) <= 1 / 1000000000.
Proof.
  intros Hx. unfold mix. rewrite phi_eq, g_pos, dens2_pos, dens3_pos by exact Hx.
  assert (E0 : 0 < exp (- (x * x) / 2) <= 1).
  { split; [apply exp_pos|]. rewrite <- exp_0. apply exp_le_mono. nra. }
  set (e := exp (- (x * x) / 2)) in *. clearbody e.
  assert (A : 0 <= Rabs x <= 3) by (split; [apply Rabs_pos|apply Rabs_le; lra]).
  pose proof (abs_sq x) as E.
  assert (P : 0 <= 2 * (3 - x * x) + 3 * (pos (Rabs x - 1) * pos (Rabs x - 1)) <= 6).
  { rewrite <- E. destruct (Rle_dec (Rabs x) 1); [rewrite pos_neg by lra|rewrite pos_pos by lra]; nra. }
  assert (Q : 0 <= pos (3 / 2 - Rabs x) <= 3 / 2).
  { destruct (Rle_dec (Rabs x) (3 / 2)); [rewrite pos_pos by lra|rewrite pos_neg by lra]; lra. }
  set (p := 2 * (3 - x * x) + 3 * (pos (Rabs x - 1) * pos (Rabs x - 1))) in *.
  set (q := pos (3 / 2 - Rabs x)) in *. clearbody p q. pose proof phi0_bounds as F. set (f := phi0) in *. clearbody f.
  unfold ga, gb, gc.
  assert (D : Rabs ((228002039 / 10000000000 * (1749731196 / 100000000) - f) * e) <= 4 / 10000000000).
  { rewrite Rabs_mult, (Rabs_pos_eq e) by lra.
    apply Rle_trans with (Rabs (228002039 / 10000000000 * (1749731196 / 100000000) - f) * 1).
    - apply Rmult_le_compat_l; [apply Rabs_pos|lra].
    - rewrite Rmult_1_r. apply Rabs_le. lra. }
  apply Rcomplements.Rabs_le_between in D.
  apply Rabs_le. lra.
Qed.

(** ** The mass of the normal density on [-3,3] *)
Fixpoint atay (n : nat) (t : R) : R := match n with O => 1 | S m => atay m t + (- t) ^ n / INR (fact n) end.
Lemma atay_etaylor n t : atay n t = etaylor n (- t).
Proof. induction n; cbn [atay etaylor]; congruence. Qed.
Lemma atay_0 n : atay n 0 = 1.
Proof. rewrite atay_etaylor, Ropp_0. apply etaylor_0. Qed.
Lemma atay_derive n t : is_derive (atay (S n)) t (- atay n t).
Proof.
  apply (is_derive_ext (fun t => etaylor (S n) (- t))); [intros; symmetry; apply atay_etaylor|].
  rewrite atay_etaylor. replace (- etaylor n (- t)) with (scal (-1) (etaylor n (- t))) by (unfold scal; simpl; unfold mult; simpl; ring).
  apply (is_derive_comp (etaylor (S n)) (fun t => - t)); [apply is_derive_etaylor|]. auto_derive; auto; ring.
Qed.
Lemma expm_derive t : is_derive (fun t => exp (- t)) t (- exp (- t)).
Proof. auto_derive; auto. ring. Qed.

Lemma alternate n : forall t, 0 <= t -> if Nat.even n then exp (- t) <= atay n t else atay n t <= exp (- t).
Proof.
  induction n; intros t Ht.
  - cbn. rewrite <- exp_0. apply exp_le_mono. lra.
  - rewrite Nat.even_succ, <- Nat.negb_even. destruct (Nat.even n); cbn [negb].
    + pose proof (incr_from0 (fun t => exp (- t) - atay (S n) t) (fun t => - exp (- t) + atay n t) t Ht) as H.
      cbv beta in H. rewrite atay_0, Ropp_0, exp_0 in H. enough (1 - 1 <= exp (- t) - atay (S n) t) by lra. apply H.
      * intros x _. replace (- exp (- x) + atay n x) with (minus (- exp (- x)) (- atay n x)) by (unfold minus, plus, opp; simpl; ring).
        apply (is_derive_minus (fun t => exp (- t)) (atay (S n))); [apply expm_derive|apply atay_derive].
      * intros x Hx. pose proof (IHn x ltac:(lra)). lra.
    + pose proof (incr_from0 (fun t => atay (S n) t - exp (- t)) (fun t => - atay n t + exp (- t)) t Ht) as H.
      cbv beta in H. rewrite atay_0, Ropp_0, exp_0 in H. enough (1 - 1 <= atay (S n) t - exp (- t)) by lra. apply H.
      * intros x _. replace (- atay n x + exp (- x)) with (minus (- atay n x) (- exp (- x))) by (unfold minus, plus, opp; simpl; ring).
        apply (is_derive_minus (atay (S n)) (fun t => exp (- t))); [apply atay_derive|apply expm_derive].
      * intros x Hx. pose proof (IHn x ltac:(lra)). lra.
Qed.

(** the primitive of atay n (x*x/2), odd in x *)
Definition mono (n : nat) (x : R) : R := x ^ (2 * n + 1) * ((- / 2) ^ n / (INR (fact n) * INR (2 * n + 1))).
Fixpoint aprim (n : nat) (x : R) : R := match n with O => x | S m => aprim m x + mono n x end.
Lemma pow_derive m c x : is_derive (fun x => x ^ m * c) x (INR m * 1 * x ^ pred m * c).
Proof. auto_derive; auto; ring. Qed.
Lemma mono_derive n x : is_derive (mono n) x ((- (x * x / 2)) ^ n / INR (fact n)).
Proof.
  unfold mono. pose proof (INR_fact_pos n) as Hf. pose proof (lt_0_INR (2 * n + 1) ltac:(lia)) as H1.
  set (c := (- / 2) ^ n / (INR (fact n) * INR (2 * n + 1))).
  replace ((- (x * x / 2)) ^ n / INR (fact n)) with (INR (2 * n + 1) * 1 * x ^ pred (2 * n + 1) * c).
  - apply (pow_derive (2 * n + 1) c x).
  - replace (pred (2 * n + 1)) with (2 * n)%nat by lia. unfold c. rewrite pow_mult.
    replace (- (x * x / 2)) with (x ^ 2 * (- / 2)) by (simpl; field). rewrite Rpow_mult_distr. field. split; lra.
Qed.
Lemma aprim_derive n x : is_derive (aprim n) x (atay n (x * x / 2)).
Proof.
  induction n; cbn [aprim atay].
  - apply (is_derive_id (K := R_AbsRing)).
  - apply (is_derive_plus (aprim n) (mono (S n))); [exact IHn|apply mono_derive].
Qed.
Lemma atay_cont n x : continuous (fun x => atay n (x * x / 2)) x.
Proof.
  destruct n.
  - apply continuous_const.
  - apply (continuous_comp (fun x => x * x / 2) (atay (S n))).
    + apply (ex_derive_continuous (V := R_NormedModule)). auto_derive. auto.
    + apply (ex_derive_continuous (V := R_NormedModule)). eexists. apply atay_derive.
Qed.
Lemma atay_int n l u : is_RInt (fun x => atay n (x * x / 2)) l u (aprim n u - aprim n l).
Proof.
  apply (is_RInt_derive (aprim n)); intros x _; [apply aprim_derive|apply atay_cont].
Qed.

Definition gauss_mass : R := RInt (fun x => exp (- (x * x / 2))) (-3) 3.
Lemma gauss_ex l u : ex_RInt (fun x => exp (- (x * x / 2))) l u.
Proof.
  apply (ex_RInt_continuous (V := R_CompleteNormedModule)). intros z _.
  apply (ex_derive_continuous (V := R_NormedModule)). auto_derive. auto.
Qed.
Lemma gauss_between n : if Nat.even n then gauss_mass <= aprim n 3 - aprim n (-3) else aprim n 3 - aprim n (-3) <= gauss_mass.
Proof.
  pose proof (atay_int n (-3) 3) as I. unfold gauss_mass. rewrite <- (is_RInt_unique _ _ _ _ I).
  destruct (Nat.even n) eqn:E; apply RInt_le; try lra; try apply gauss_ex; try (eexists; exact I);
    intros x _; pose proof (alternate n (x * x / 2) ltac:(nra)) as H; rewrite E in H; exact H.
Qed.

Definition qmono (n : nat) : Q := Qred (qpow 3 (2 * n + 1) * (qpow (-1 # 2) n / (inject_Z (qfact n) * inject_Z (Z.of_nat (2 * n + 1)))))%Q.
Fixpoint qprim (n : nat) : Q := match n with O => 3%Q | S m => Qred (qprim m + qmono n)%Q end.
Lemma qmono_R n : Q2R (qmono n) = mono n 3.
Proof.
  unfold qmono, mono. rewrite Q2R_Qred, Q2R_mult, Q2R_div, Q2R_mult, !Q2R_qpow, !Q2R_inject, qfact_fact, <- INR_IZR_INZ.
  - f_equal; [f_equal; unfold Q2R; simpl; lra|]. f_equal. f_equal. unfold Q2R; simpl; lra.
  - intros E. unfold Qeq in E. simpl in E. pose proof (qfact_pos n). nia.
Qed.
Lemma qprim_R n : Q2R (qprim n) = aprim n 3.
Proof. induction n; cbn [qprim aprim]; [unfold Q2R; simpl; lra|]. rewrite Q2R_Qred, Q2R_plus, IHn, qmono_R. reflexivity. Qed.
Lemma mono_odd n x : mono n (- x) = - mono n x.
Proof.
  unfold mono. replace ((- x) ^ (2 * n + 1)) with (- x ^ (2 * n + 1)); [ring|].
  rewrite !pow_add, !pow_mult. replace ((- x) ^ 2) with (x ^ 2) by ring. ring.
Qed.
Lemma aprim_odd n x : aprim n (- x) = - aprim n x.
Proof. induction n; cbn [aprim]; [reflexivity|]. rewrite IHn, mono_odd. ring. Qed.

Lemma gauss_mass_bounds : 24998608894 / 10000000000 <= gauss_mass <= 24998608897 / 10000000000.
Proof.
  pose proof (gauss_between 24) as U. pose proof (gauss_between 25) as L. cbn [Nat.even] in U, L.
  rewrite (aprim_odd _ 3), <- qprim_R in U. rewrite (aprim_odd _ 3), <- qprim_R in L.
  assert (A : Q2R (qprim 24) <= Q2R (24998608897 # 20000000000)) by (apply Qle_Rle; apply Qle_bool_iff; vm_compute; reflexivity).
  assert (B : Q2R (24998608894 # 20000000000) <= Q2R (qprim 25)) by (apply Qle_Rle; apply Qle_bool_iff; vm_compute; reflexivity).
  set (s := Q2R (qprim 24)) in *. set (t := Q2R (qprim 25)) in *. clearbody s t. unfold Q2R in A, B. cbn [Qnum Qden] in A, B. lra.
Qed.
