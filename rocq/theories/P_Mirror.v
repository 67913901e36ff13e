(** Mirroring a variogram in double precision. *)
From Coq Require Import ZArith Bool Lia Reals Lra String List.
From Flocq Require Import Core IEEE754.BinarySingleNaN.
From Verif Require Import Base Arith FloatArith M_Variogram S_Mirror P_VarioF.
Import ListNotations.
Open Scope R_scope.

Notation Bp := (@Bplus 53 1024 Hprec Hmax mode_NE).
Notation Bs := (@Bminus 53 1024 Hprec Hmax mode_NE).
Lemma same_refl x : same x x. Proof. left. reflexivity. Qed.
Lemma same_sym x y : same x y -> same y x.
Proof. intros [->|(s & s' & -> & ->)]; [apply same_refl|]. right. eauto. Qed.
Lemma same_trans x y z : same x y -> same y z -> same x z.
Proof. intros [->|(s & s' & -> & ->)] H; [exact H|]. destruct H as [<-|(t & t' & _ & ->)]; right; eauto. Qed.
Lemma same_opp x y : same x y -> same (Bo x) (Bo y).
Proof. intros [->|(s & s' & -> & ->)]; [apply same_refl|]. right. cbn. eauto. Qed.
Lemma plus_l x x' y : same x x' -> same (Bp x y) (Bp x' y).
Proof. intros [->|(s & s' & -> & ->)]; [apply same_refl|]. destruct y as [b|b| |]; try apply same_refl. right. cbn. destruct s, s', b; cbn; eauto. Qed.
Lemma plus_r x y y' : same y y' -> same (Bp x y) (Bp x y').
Proof. intros [->|(s & s' & -> & ->)]; [apply same_refl|]. destruct x as [b|b| |]; try apply same_refl. right. cbn. destruct s, s', b; cbn; eauto. Qed.
Lemma same_plus x x' y y' : same x x' -> same y y' -> same (Bp x y) (Bp x' y').
Proof. intros A B. eapply same_trans; [apply plus_l, A|apply plus_r, B]. Qed.
Lemma minus_l x x' y : same x x' -> same (Bs x y) (Bs x' y).
Proof. intros [->|(s & s' & -> & ->)]; [apply same_refl|]. destruct y as [b|b| |]; try apply same_refl. right. cbn. destruct s, s', b; cbn; eauto. Qed.
Lemma minus_r x y y' : same y y' -> same (Bs x y) (Bs x y').
Proof. intros [->|(s & s' & -> & ->)]; [apply same_refl|]. destruct x as [b|b| |]; try apply same_refl. right. cbn. destruct s, s', b; cbn; eauto. Qed.
Lemma same_minus x x' y y' : same x x' -> same y y' -> same (Bs x y) (Bs x' y').
Proof. intros A B. eapply same_trans; [apply minus_l, A|apply minus_r, B]. Qed.
Lemma mult_l x x' y : same x x' -> same (Bm x y) (Bm x' y).
Proof. intros [->|(s & s' & -> & ->)]; [apply same_refl|]. destruct y as [b|b| |]; try apply same_refl; right; cbn; eauto. Qed.
Lemma mult_r x y y' : same y y' -> same (Bm x y) (Bm x y').
Proof. rewrite !(Bmult_comm x). apply mult_l. Qed.
Lemma same_mult x x' y y' : same x x' -> same y y' -> same (Bm x y) (Bm x' y').
Proof. intros A B. eapply same_trans; [apply mult_l, A|apply mult_r, B]. Qed.
Lemma same_sqrt x x' : same x x' -> same (Bsqrt mode_NE x) (Bsqrt mode_NE x').
Proof. intros [->|(s & s' & -> & ->)]; [apply same_refl|]. right. cbn. eauto. Qed.

(** sums of negated numbers *)
Lemma B2R_same (x y : b64) : is_finite x = true -> is_finite y = true -> B2R x = B2R y -> same x y.
Proof.
  intros X Y E. destruct (Req_dec (B2R x) 0) as [Z|Z].
  - assert (G : forall w : b64, is_finite w = true -> B2R w = 0 -> exists s, w = B754_zero s).
    { intros [s|s| |s k e H] F W; try discriminate F; [eauto|]. exfalso. cbn in W. apply eq_0_F2R in W. destruct s; discriminate W. }
    destruct (G x X Z) as [s ->], (G y Y ltac:(congruence)) as [s' ->]. right. eauto.
  - left. apply B2R_Bsign_inj; try assumption.
    assert (G : forall w : b64, is_finite w = true -> B2R w <> 0 -> Bsign w = Rlt_bool (B2R w) 0).
    { intros [s|s| |s k e H] F W; try discriminate F; [cbn in W; lra|]. cbn [Bsign]. destruct s.
      - symmetry. apply Rlt_bool_true. cbn. apply F2R_lt_0. reflexivity.
      - symmetry. apply Rlt_bool_false. cbn. apply F2R_ge_0. cbn. lia. }
    rewrite (G x), (G y) by congruence. rewrite E. reflexivity.
Qed.
Lemma plus_opp (x y : b64) : same (Bp (Bo x) (Bo y)) (Bo (Bp x y)).
Proof.
  destruct (is_finite x) eqn:X; [|destruct x as [s|s| |], y as [t|t| |]; try discriminate X; try apply same_refl; cbn; destruct s, t; apply same_refl].
  destruct (is_finite y) eqn:Y; [|destruct x as [s|s| |], y as [t|t| |]; try discriminate Y; try apply same_refl; cbn; destruct s, t; apply same_refl].
  pose proof (Bplus_correct 53 1024 Hprec Hmax mode_NE x y X Y) as C.
  pose proof (Bplus_correct 53 1024 Hprec Hmax mode_NE (Bo x) (Bo y)) as D. rewrite !is_finite_Bopp in D. specialize (D X Y). rewrite !B2R_Bopp in D.
  replace (- B2R x + - B2R y) with (- (B2R x + B2R y)) in D by ring.
  assert (RO : forall u, round radix2 (SpecFloat.fexp 53 1024) (round_mode mode_NE) (- u) = - round radix2 (SpecFloat.fexp 53 1024) (round_mode mode_NE) u) by (intros; apply round_NE_opp).
  rewrite RO, Rabs_Ropp in D. destruct (Rlt_bool _ _) in C, D.
  - destruct C as (V & F & _), D as (V' & F' & _). apply B2R_same; [exact F'|rewrite is_finite_Bopp; exact F|]. rewrite V', B2R_Bopp, V. reflexivity.
  - destruct C as [C _], D as [D _]. left. apply B2SF_inj. rewrite B2SF_Bopp, C, D. 
    assert (N : is_finite x = true -> Bsign (Bo x) = negb (Bsign x)) by (intros _; destruct x; try discriminate X; reflexivity). rewrite (N X).
    unfold binary_overflow, overflow_to_inf. destruct (Bsign x); reflexivity.
Qed.
Lemma minus_is (x y : b64) : Bs x y = Bp x (Bo y).
Proof. destruct x as [s|s| |s k e H], y as [t|t| |t l f G]; try reflexivity; cbn; destruct s, t; reflexivity. Qed.
Lemma minus_opp (x y : b64) : same (Bs (Bo x) (Bo y)) (Bo (Bs x y)).
Proof. rewrite !minus_is. apply plus_opp. Qed.

Section Mirror.
Context (m : libm) (Sm : mirrored m).
Notation F := (Farith m).
Notation nv := (@new_variogram F).

(** opposite up to the sign of zero *)
Definition against (x y : b64) : Prop := same x (Bo y).
Lemma ag_mult_l x y z : against x y -> against (Bm x z) (Bm y z).
Proof. intros H. unfold against. rewrite <- Bmult_opp_l. apply same_mult; [exact H|apply same_refl]. Qed.
Lemma ag_mult_r x y z : against x y -> against (Bm z x) (Bm z y).
Proof. rewrite !(Bmult_comm z). apply ag_mult_l. Qed.
Lemma ag_plus x y x' y' : against x y -> against x' y' -> against (Bp x x') (Bp y y').
Proof. intros A B. eapply same_trans; [apply same_plus; [exact A|exact B]|]. apply plus_opp. Qed.
Lemma ag_minus x y x' y' : against x y -> against x' y' -> against (Bs x x') (Bs y y').
Proof. intros A B. eapply same_trans; [apply same_minus; [exact A|exact B]|]. apply minus_opp. Qed.
Lemma ag_opp x : against (Bo x) x. Proof. apply same_refl. Qed.
Lemma opp2 (x : b64) : Bm (Bo x) (Bo x) = Bm x x.
Proof. rewrite Bmult_opp_l, Bmult_opp_r, Bopp_involutive. reflexivity. Qed.

Lemma corr_same (v v' : variogram F) d d' : vt v' = vt v -> vpower v' = vpower v -> same d' d -> same (Corr1D v' d') (Corr1D v d).
Proof.
  intros T P H. unfold Corr1D. rewrite T, P. cbn [mul add sub div neg flt fexp fpow Farith num]. destruct (vt v).
  - apply same_refl.
  - apply (exp_same m Sm), mult_r, H.
  - assert (L : Bltb d' (Flit 1 0) = Bltb d (Flit 1 0)) by (destruct H as [->|(s & s' & -> & ->)]; reflexivity).
    change (lit F 1 0) with (Flit 1 0). rewrite L. destruct (Bltb d (Flit 1 0)); [|apply same_refl].
    apply minus_r, same_mult; [exact H|]. apply minus_r, same_mult; [apply mult_r, H|exact H].
  - apply (exp_same m Sm), same_mult; [apply mult_r, H|exact H].
  - apply (exp_same m Sm), mult_r, (pow_same m Sm), H.
  - cbv zeta. apply same_mult; [apply (exp_same m Sm), same_opp, mult_r, H|]. apply plus_r, mult_r, H.
  - cbv zeta. apply same_mult; [apply (exp_same m Sm), same_opp, mult_r, H|].
    apply same_plus; [apply plus_r, mult_r, H|].
    assert (Q : same (Bm (Bm (lit F 5918 3) d') (Bm (lit F 5918 3) d')) (Bm (Bm (lit F 5918 3) d) (Bm (lit F 5918 3) d))) by (apply same_mult; apply mult_r, H).
    destruct Q as [->|(s & s' & -> & ->)]; [apply same_refl|]. right. 
    assert (T3 : exists k e He, lit F 3 0 = B754_finite false k e He) by (exists 6755399441055744%positive, (-51)%Z, eq_refl; apply B2SF_inj; vm_compute; reflexivity).
    destruct T3 as (k & e & He & ->). cbn. eauto.
  - cbv zeta. apply same_mult; [apply (exp_same m Sm), same_opp, mult_r, H|].
    apply same_plus; [apply same_plus; [apply plus_r, mult_r, H|apply mult_r, (pow_same m Sm), mult_r, H]|].
    assert (Q : same (lm_pow m (Bm (lit F 6877 3) d') (lit F 3 0)) (lm_pow m (Bm (lit F 6877 3) d) (lit F 3 0))) by (apply (pow_same m Sm), mult_r, H).
    destruct Q as [->|(s & s' & -> & ->)]; [apply same_refl|]. right. 
    assert (T3 : exists k e He, lit F 15 0 = B754_finite false k e He) by (exists 8444249301319680%positive, (-49)%Z, eq_refl; apply B2SF_inj; vm_compute; reflexivity).
    destruct T3 as (k & e & He & ->). cbn. eauto.
  - apply same_refl.
Qed.

Lemma mirror_azi t p rx ry rz a d s x y z :
  same (GetCorr3 (nv t p rx ry rz (Bo a) d s) x (Bo y) z) (GetCorr3 (nv t p rx ry rz a d s) x y z) /\
  same (GetCorr2 (nv t p rx ry rz (Bo a) d s) x (Bo y)) (GetCorr2 (nv t p rx ry rz a d s) x y).
Proof.
  unfold GetCorr3, GetCorr2, Distance3, Distance2, new_variogram, EstimateFactors.
  cbn [vt vpower range_x range_y range_z azimuth dip var txx tyy tzz txy txz tyz mul add sub div fsin fcos fsqrt Farith num].
  rewrite (sin_odd m Sm), (cos_even m Sm). rewrite !opp2.
  set (c := lm_cos m a). set (sn := lm_sin m a). set (cd := lm_cos m d). set (sd := lm_sin m d).
  set (f1 := Bdiv mode_NE _ (Bm rx rx)). set (f2 := Bdiv mode_NE _ (Bm ry ry)). set (f3 := Bdiv mode_NE _ (Bm rz rz)).
  assert (XY : forall two, against (Bm two (Bp (Bs (Bm (Bm (Bm (Bm cd cd) c) (Bo sn)) f1) (Bm (Bm (Bo sn) c) f2)) (Bm (Bm (Bm (Bm sd sd) c) (Bo sn)) f3)))
    (Bm two (Bp (Bs (Bm (Bm (Bm (Bm cd cd) c) sn) f1) (Bm (Bm sn c) f2)) (Bm (Bm (Bm (Bm sd sd) c) sn) f3)))).
  { intros two. apply ag_mult_r, ag_plus; [apply ag_minus|].
    - apply ag_mult_l, ag_mult_r, ag_opp.
    - apply ag_mult_l, ag_mult_l, ag_opp.
    - apply ag_mult_l, ag_mult_r, ag_opp. }
  assert (YZ : forall two, against (Bm two (Bs (Bm (Bm (Bm (Bo sn) cd) sd) f1) (Bm (Bm (Bm (Bo sn) cd) sd) f3)))
    (Bm two (Bs (Bm (Bm (Bm sn cd) sd) f1) (Bm (Bm (Bm sn cd) sd) f3)))).
  { intros two. apply ag_mult_r, ag_minus; apply ag_mult_l, ag_mult_l, ag_mult_l, ag_opp. }
  assert (E : forall u w q r, against u w -> same (Bm (Bm u q) (Bo r)) (Bm (Bm w q) r)).
  { intros u w q r H. rewrite Bmult_opp_r, <- Bmult_opp_l. apply mult_l. eapply same_trans; [apply same_opp, mult_l, H|].
    rewrite Bmult_opp_l, Bopp_involutive. apply same_refl. }
  assert (E' : forall u w q r, against u w -> same (Bm (Bm u (Bo q)) r) (Bm (Bm w q) r)).
  { intros u w q r H. apply mult_l. rewrite Bmult_opp_r. eapply same_trans; [apply same_opp, mult_l, H|].
    rewrite Bmult_opp_l, Bopp_involutive. apply same_refl. }
  split; (apply corr_same; [reflexivity|reflexivity|]); apply same_sqrt.
  - apply same_plus; [|apply E', YZ]. apply same_plus; [|apply same_refl]. apply same_plus; [|apply E, XY]. rewrite Bmult_opp2. apply same_refl.
  - apply same_plus; [|apply E, XY]. rewrite Bmult_opp2. apply same_refl.
Qed.
Lemma mirror_dip t p rx ry rz a d s x y z :
  same (GetCorr3 (nv t p rx ry rz a (Bo d) s) x y (Bo z)) (GetCorr3 (nv t p rx ry rz a d s) x y z) /\
  GetCorr2 (nv t p rx ry rz a (Bo d) s) x y = GetCorr2 (nv t p rx ry rz a d s) x y.
Proof.
  unfold GetCorr3, GetCorr2, Distance3, Distance2, new_variogram, EstimateFactors.
  cbn [vt vpower range_x range_y range_z azimuth dip var txx tyy tzz txy txz tyz mul add sub div fsin fcos fsqrt Farith num].
  rewrite (sin_odd m Sm), (cos_even m Sm). rewrite !opp2, !Bmult_opp2.
  set (c := lm_cos m a). set (sn := lm_sin m a). set (cd := lm_cos m d). set (sd := lm_sin m d).
  set (f1 := Bdiv mode_NE _ (Bm rx rx)). set (f2 := Bdiv mode_NE _ (Bm ry ry)). set (f3 := Bdiv mode_NE _ (Bm rz rz)).
  assert (XZ : forall two w, against (Bm two (Bs (Bm (Bm (Bm w cd) (Bo sd)) f1) (Bm (Bm (Bm w cd) (Bo sd)) f3)))
    (Bm two (Bs (Bm (Bm (Bm w cd) sd) f1) (Bm (Bm (Bm w cd) sd) f3)))).
  { intros two w. apply ag_mult_r, ag_minus; apply ag_mult_l, ag_mult_r, ag_opp. }
  assert (E : forall u w q r, against u w -> same (Bm (Bm u q) (Bo r)) (Bm (Bm w q) r)).
  { intros u w q r H. rewrite Bmult_opp_r, <- Bmult_opp_l. apply mult_l. eapply same_trans; [apply same_opp, mult_l, H|].
    rewrite Bmult_opp_l, Bopp_involutive. apply same_refl. }
  split; [|reflexivity]. apply corr_same; [reflexivity|reflexivity|]. apply same_sqrt.
  apply same_plus; [|apply E, XZ]. apply same_plus; [|apply E, XZ]. apply same_refl.
Qed.
Lemma created_nv s main perp depth azi dp p (v : variogram F) : CreateVariogram (A := F) s main perp depth azi dp p = Ok v ->
  exists t p' rx ry rz, v = nv t p' rx ry rz (Bm azi (@Degree F)) (Bm dp (@Degree F)) (lit F 1 0) /\
    (forall azi' dp', CreateVariogram (A := F) s main perp depth azi' dp' p = Ok (nv t p' rx ry rz (Bm azi' (@Degree F)) (Bm dp' (@Degree F)) (lit F 1 0))).
Proof.
  unfold CreateVariogram. destruct (Uppercase s) as [u| | |]; cbn [bind]; try discriminate.
  destruct (type_of_name u); cbn [Create]; intros E; try discriminate E; injection E as <-; eexists _, _, _, _, _; (split; [reflexivity|intros; reflexivity]).
Qed.
Lemma c93_azimuth s main perp depth azi dp p v : CreateVariogram (A := F) s main perp depth azi dp p = Ok v ->
  exists v', CreateVariogram (A := F) s main perp depth (Bopp azi) dp p = Ok v' /\ forall x y z,
  same (GetCorr3 v' x (Bopp y) z) (GetCorr3 v x y z) /\ same (GetCorr2 v' x (Bopp y)) (GetCorr2 v x y).
Proof.
  intros C. destruct (created_nv _ _ _ _ _ _ _ _ C) as (t & p' & rx & ry & rz & -> & H). eexists. split; [apply H|]. rewrite Bmult_opp_l.
  intros. apply mirror_azi.
Qed.
Lemma c93_dip s main perp depth azi dp p v : CreateVariogram (A := F) s main perp depth azi dp p = Ok v ->
  exists v', CreateVariogram (A := F) s main perp depth azi (Bopp dp) p = Ok v' /\ forall x y z,
  same (GetCorr3 v' x y (Bopp z)) (GetCorr3 v x y z) /\ GetCorr2 v' x y = GetCorr2 v x y.
Proof.
  intros C. destruct (created_nv _ _ _ _ _ _ _ _ C) as (t & p' & rx & ry & rz & -> & H). eexists. split; [apply H|]. rewrite Bmult_opp_l.
  intros. apply mirror_dip.
Qed.
End Mirror.
