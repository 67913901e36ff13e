(** Rational bounds on the residual density of the normal sampler. Generated; the polynomial identities are in the Bernstein
    form on each interval. *)
From Coq Require Import ZArith QArith Qreals Reals Lra Lia.
From Verif Require Import P_RBounds P_QBounds.
Open Scope R_scope.

Definition ga : R := 1749731196 / 100000000.
Definition gb : R := 236785163 / 100000000.
Definition gc : R := 215787544 / 100000000.
Definition T3 (y : R) : R := 1 + y + y ^ 2 / 2 + y ^ 3 / 6.
Definition T4 (y : R) : R := 1 + y + y ^ 2 / 2 + y ^ 3 / 6 + y ^ 4 / 24.

Lemma bpos s i j : 0 <= s <= 1 -> 0 <= s ^ i * (1 - s) ^ j.
Proof. intros H. apply Rmult_le_pos; apply pow_le; lra. Qed.

Lemma E3_10 : (23899937 / 25000000) <= exp (- (9 / 200)) <= (955997483 / 1000000000).
Proof.
  pose proof (exp_neg_between 9 200 (23899937 # 25000000) (955997483 # 1000000000) 14 2) as H.
  unfold Q2R in H. cbn [Qnum Qden] in H. apply H. vm_compute. reflexivity.
Qed.

Lemma E1_2 : (882496901 / 1000000000) <= exp (- (1 / 8)) <= (110312113 / 125000000).
Proof.
  pose proof (exp_neg_between 1 8 (882496901 # 1000000000) (110312113 # 125000000) 14 2) as H.
  unfold Q2R in H. cbn [Qnum Qden] in H. apply H. vm_compute. reflexivity.
Qed.

Lemma E3_4 : (1887099 / 2500000) <= exp (- (9 / 32)) <= (754839603 / 1000000000).
Proof.
  pose proof (exp_neg_between 9 32 (1887099 # 2500000) (754839603 # 1000000000) 14 2) as H.
  unfold Q2R in H. cbn [Qnum Qden] in H. apply H. vm_compute. reflexivity.
Qed.

Lemma E7_8 : (2727763 / 4000000) <= exp (- (49 / 128)) <= (681940753 / 1000000000).
Proof.
  pose proof (exp_neg_between 49 128 (2727763 # 4000000) (681940753 # 1000000000) 14 2) as H.
  unfold Q2R in H. cbn [Qnum Qden] in H. apply H. vm_compute. reflexivity.
Qed.

Lemma E15_16 : (644388723 / 1000000000) <= exp (- (225 / 512)) <= (322194363 / 500000000).
Proof.
  pose proof (exp_neg_between 225 512 (644388723 # 1000000000) (322194363 # 500000000) 14 2) as H.
  unfold Q2R in H. cbn [Qnum Qden] in H. apply H. vm_compute. reflexivity.
Qed.

Lemma E1_1 : (303265329 / 500000000) <= exp (- (1 / 2)) <= (606530661 / 1000000000).
Proof.
  pose proof (exp_neg_between 1 2 (303265329 # 500000000) (606530661 # 1000000000) 14 2) as H.
  unfold Q2R in H. cbn [Qnum Qden] in H. apply H. vm_compute. reflexivity.
Qed.

Lemma E5_4 : (5722917 / 12500000) <= exp (- (25 / 32)) <= (457833363 / 1000000000).
Proof.
  pose proof (exp_neg_between 25 32 (5722917 # 12500000) (457833363 # 1000000000) 14 2) as H.
  unfold Q2R in H. cbn [Qnum Qden] in H. apply H. vm_compute. reflexivity.
Qed.

Lemma E3_2 : (162326233 / 500000000) <= exp (- (9 / 8)) <= (324652469 / 1000000000).
Proof.
  pose proof (exp_neg_between 9 8 (162326233 # 500000000) (324652469 # 1000000000) 14 4) as H.
  unfold Q2R in H. cbn [Qnum Qden] in H. apply H. vm_compute. reflexivity.
Qed.

Lemma E9_4 : (79559507 / 1000000000) <= exp (- (81 / 32)) <= (7955951 / 100000000).
Proof.
  pose proof (exp_neg_between 81 32 (79559507 # 1000000000) (7955951 # 100000000) 14 6) as H.
  unfold Q2R in H. cbn [Qnum Qden] in H. apply H. vm_compute. reflexivity.
Qed.

Lemma E5_2 : (10984233 / 250000000) <= exp (- (25 / 8)) <= (8787387 / 200000000).
Proof.
  pose proof (exp_neg_between 25 8 (10984233 # 250000000) (8787387 # 200000000) 14 8) as H.
  unfold Q2R in H. cbn [Qnum Qden] in H. apply H. vm_compute. reflexivity.
Qed.

Lemma up_A_0_1_p x : 0 <= x <= (3 / 10) -> ga * (1 * T4 ((0 - x * x) / 2)) - (2 * gb * (3 - x * x) + gc * (3 / 2 - x)) <= 358 / 1000.
Proof.
  intros Hx. set (s := (x - 0) / (3 / 10)). assert (Hs : 0 <= s <= 1) by (unfold s; lra).
  assert (Ex : x = 0 + (3 / 10) * s) by (unfold s; field). clearbody s. subst x.
  assert (E : 358 / 1000 - (ga * (1 * T4 ((0 - (0 + (3 / 10) * s) * (0 + (3 / 10) * s)) / 2)) - (2 * gb * (3 - (0 + (3 / 10) * s) * (0 + (3 / 10) * s)) + gc * (3 / 2 - (0 + (3 / 10) * s)))) =
    (15230549 / 50000000) * (s ^ 0 * (1 - s) ^ 9) + (523534047 / 250000000) * (s ^ 1 * (1 - s) ^ 8) + (7685324961 / 1250000000) * (s ^ 2 * (1 - s) ^ 7) + (12486661047 / 1250000000) * (s ^ 3 * (1 - s) ^ 6) + (19390881400881 / 2000000000000) * (s ^ 4 * (1 - s) ^ 5) + (2247128066481 / 400000000000) * (s ^ 5 * (1 - s) ^ 4) + (719568581132157 / 400000000000000) * (s ^ 6 * (1 - s) ^ 3) + (99183664992471 / 400000000000000) * (s ^ 7 * (1 - s) ^ 2) + (951061599645387 / 320000000000000000) * (s ^ 8 * (1 - s) ^ 1) + (307460891554187 / 320000000000000000) * (s ^ 9 * (1 - s) ^ 0)) by (unfold T3, T4, ga, gb, gc; field).
  assert (P : 0 <= (15230549 / 50000000) * (s ^ 0 * (1 - s) ^ 9) + (523534047 / 250000000) * (s ^ 1 * (1 - s) ^ 8) + (7685324961 / 1250000000) * (s ^ 2 * (1 - s) ^ 7) + (12486661047 / 1250000000) * (s ^ 3 * (1 - s) ^ 6) + (19390881400881 / 2000000000000) * (s ^ 4 * (1 - s) ^ 5) + (2247128066481 / 400000000000) * (s ^ 5 * (1 - s) ^ 4) + (719568581132157 / 400000000000000) * (s ^ 6 * (1 - s) ^ 3) + (99183664992471 / 400000000000000) * (s ^ 7 * (1 - s) ^ 2) + (951061599645387 / 320000000000000000) * (s ^ 8 * (1 - s) ^ 1) + (307460891554187 / 320000000000000000) * (s ^ 9 * (1 - s) ^ 0)).
  { clear E. repeat apply Rplus_le_le_0_compat; apply Rmult_le_pos; try lra; apply bpos; exact Hs. }
  lra.
Qed.

Lemma up_A_3_10_p x : (3 / 10) <= x <= (1 / 2) -> ga * ((955997483 / 1000000000) * T4 (((9 / 100) - x * x) / 2)) - (2 * gb * (3 - x * x) + gc * (3 / 2 - x)) <= 358 / 1000.
Proof.
  intros Hx. set (s := (x - (3 / 10)) / (1 / 5)). assert (Hs : 0 <= s <= 1) by (unfold s; lra).
  assert (Ex : x = (3 / 10) + (1 / 5) * s) by (unfold s; field). clearbody s. subst x.
  assert (E : 358 / 1000 - (ga * ((955997483 / 1000000000) * T4 (((9 / 100) - ((3 / 10) + (1 / 5) * s) * ((3 / 10) + (1 / 5) * s)) / 2)) - (2 * gb * (3 - ((3 / 10) + (1 / 5) * s) * ((3 / 10) + (1 / 5) * s)) + gc * (3 / 2 - ((3 / 10) + (1 / 5) * s)))) =
    (24020539355083 / 25000000000000000) * (s ^ 0 * (1 - s) ^ 9) + (15538858186722101 / 1250000000000000000) * (s ^ 1 * (1 - s) ^ 8) + (22483676754596428247 / 125000000000000000000) * (s ^ 2 * (1 - s) ^ 7) + (6076586309870136075603 / 6250000000000000000000) * (s ^ 3 * (1 - s) ^ 6) + (3285737708743077534121441 / 1250000000000000000000000) * (s ^ 4 * (1 - s) ^ 5) + (5132061659225526823981393 / 1250000000000000000000000) * (s ^ 5 * (1 - s) ^ 4) + (609654758707677117674057 / 156250000000000000000000) * (s ^ 6 * (1 - s) ^ 3) + (174792612424313637249047 / 78125000000000000000000) * (s ^ 7 * (1 - s) ^ 2) + (13949299440500359729101 / 19531250000000000000000) * (s ^ 8 * (1 - s) ^ 1) + (954446554179231207497 / 9765625000000000000000) * (s ^ 9 * (1 - s) ^ 0)) by (unfold T3, T4, ga, gb, gc; field).
  assert (P : 0 <= (24020539355083 / 25000000000000000) * (s ^ 0 * (1 - s) ^ 9) + (15538858186722101 / 1250000000000000000) * (s ^ 1 * (1 - s) ^ 8) + (22483676754596428247 / 125000000000000000000) * (s ^ 2 * (1 - s) ^ 7) + (6076586309870136075603 / 6250000000000000000000) * (s ^ 3 * (1 - s) ^ 6) + (3285737708743077534121441 / 1250000000000000000000000) * (s ^ 4 * (1 - s) ^ 5) + (5132061659225526823981393 / 1250000000000000000000000) * (s ^ 5 * (1 - s) ^ 4) + (609654758707677117674057 / 156250000000000000000000) * (s ^ 6 * (1 - s) ^ 3) + (174792612424313637249047 / 78125000000000000000000) * (s ^ 7 * (1 - s) ^ 2) + (13949299440500359729101 / 19531250000000000000000) * (s ^ 8 * (1 - s) ^ 1) + (954446554179231207497 / 9765625000000000000000) * (s ^ 9 * (1 - s) ^ 0)).
  { clear E. repeat apply Rplus_le_le_0_compat; apply Rmult_le_pos; try lra; apply bpos; exact Hs. }
  lra.
Qed.

Lemma up_A_1_2_p x : (1 / 2) <= x <= 1 -> ga * ((110312113 / 125000000) * T4 (((1 / 4) - x * x) / 2)) - (2 * gb * (3 - x * x) + gc * (3 / 2 - x)) <= 358 / 1000.
Proof.
  intros Hx. set (s := (x - (1 / 2)) / (1 / 2)). assert (Hs : 0 <= s <= 1) by (unfold s; lra).
  assert (Ex : x = (1 / 2) + (1 / 2) * s) by (unfold s; field). clearbody s. subst x.
  assert (E : 358 / 1000 - (ga * ((110312113 / 125000000) * T4 (((1 / 4) - ((1 / 2) + (1 / 2) * s) * ((1 / 2) + (1 / 2) * s)) / 2)) - (2 * gb * (3 - ((1 / 2) + (1 / 2) * s) * ((1 / 2) + (1 / 2) * s)) + gc * (3 / 2 - ((1 / 2) + (1 / 2) * s)))) =
    (305424287430713 / 3125000000000000) * (s ^ 0 * (1 - s) ^ 9) + (3232908765139991 / 2500000000000000) * (s ^ 1 * (1 - s) ^ 8) + (141810370656839721 / 20000000000000000) * (s ^ 2 * (1 - s) ^ 7) + (8477010729290381717 / 400000000000000000) * (s ^ 3 * (1 - s) ^ 6) + (245080895442518915523 / 6400000000000000000) * (s ^ 4 * (1 - s) ^ 5) + (278835776470519396049 / 6400000000000000000) * (s ^ 5 * (1 - s) ^ 4) + (399673050768906519729 / 12800000000000000000) * (s ^ 6 * (1 - s) ^ 3) + (86562366762102059039 / 6400000000000000000) * (s ^ 7 * (1 - s) ^ 2) + (64867108897663264983 / 20480000000000000000) * (s ^ 8 * (1 - s) ^ 1) + (30186537093005073899 / 102400000000000000000) * (s ^ 9 * (1 - s) ^ 0)) by (unfold T3, T4, ga, gb, gc; field).
  assert (P : 0 <= (305424287430713 / 3125000000000000) * (s ^ 0 * (1 - s) ^ 9) + (3232908765139991 / 2500000000000000) * (s ^ 1 * (1 - s) ^ 8) + (141810370656839721 / 20000000000000000) * (s ^ 2 * (1 - s) ^ 7) + (8477010729290381717 / 400000000000000000) * (s ^ 3 * (1 - s) ^ 6) + (245080895442518915523 / 6400000000000000000) * (s ^ 4 * (1 - s) ^ 5) + (278835776470519396049 / 6400000000000000000) * (s ^ 5 * (1 - s) ^ 4) + (399673050768906519729 / 12800000000000000000) * (s ^ 6 * (1 - s) ^ 3) + (86562366762102059039 / 6400000000000000000) * (s ^ 7 * (1 - s) ^ 2) + (64867108897663264983 / 20480000000000000000) * (s ^ 8 * (1 - s) ^ 1) + (30186537093005073899 / 102400000000000000000) * (s ^ 9 * (1 - s) ^ 0)).
  { clear E. repeat apply Rplus_le_le_0_compat; apply Rmult_le_pos; try lra; apply bpos; exact Hs. }
  lra.
Qed.

Lemma up_B_1_1_p x : 1 <= x <= (5 / 4) -> ga * ((606530661 / 1000000000) * T4 ((1 - x * x) / 2)) - (gb * (3 - x) * (3 - x) + gc * (3 / 2 - x)) <= 358 / 1000.
Proof.
  intros Hx. set (s := (x - 1) / (1 / 4)). assert (Hs : 0 <= s <= 1) by (unfold s; lra).
  assert (Ex : x = 1 + (1 / 4) * s) by (unfold s; field). clearbody s. subst x.
  assert (E : 358 / 1000 - (ga * ((606530661 / 1000000000) * T4 ((1 - (1 + (1 / 4) * s) * (1 + (1 / 4) * s)) / 2)) - (gb * (3 - (1 + (1 / 4) * s)) * (3 - (1 + (1 / 4) * s)) + gc * (3 / 2 - (1 + (1 / 4) * s)))) =
    (7392201279449861 / 25000000000000000) * (s ^ 0 * (1 - s) ^ 9) + (48140720356149027 / 20000000000000000) * (s ^ 1 * (1 - s) ^ 8) + (109493862836585137 / 12500000000000000) * (s ^ 2 * (1 - s) ^ 7) + (5984664556111079659 / 320000000000000000) * (s ^ 3 * (1 - s) ^ 6) + (660570830108061570633 / 25600000000000000000) * (s ^ 4 * (1 - s) ^ 5) + (39049642249754727589 / 1638400000000000000) * (s ^ 5 * (1 - s) ^ 4) + (2410969774997846025019 / 163840000000000000000) * (s ^ 6 * (1 - s) ^ 3) + (38298458285081139727167 / 6553600000000000000000) * (s ^ 7 * (1 - s) ^ 2) + (283300014974209111045399 / 209715200000000000000000) * (s ^ 8 * (1 - s) ^ 1) + (28943357025005305778231 / 209715200000000000000000) * (s ^ 9 * (1 - s) ^ 0)) by (unfold T3, T4, ga, gb, gc; field).
  assert (P : 0 <= (7392201279449861 / 25000000000000000) * (s ^ 0 * (1 - s) ^ 9) + (48140720356149027 / 20000000000000000) * (s ^ 1 * (1 - s) ^ 8) + (109493862836585137 / 12500000000000000) * (s ^ 2 * (1 - s) ^ 7) + (5984664556111079659 / 320000000000000000) * (s ^ 3 * (1 - s) ^ 6) + (660570830108061570633 / 25600000000000000000) * (s ^ 4 * (1 - s) ^ 5) + (39049642249754727589 / 1638400000000000000) * (s ^ 5 * (1 - s) ^ 4) + (2410969774997846025019 / 163840000000000000000) * (s ^ 6 * (1 - s) ^ 3) + (38298458285081139727167 / 6553600000000000000000) * (s ^ 7 * (1 - s) ^ 2) + (283300014974209111045399 / 209715200000000000000000) * (s ^ 8 * (1 - s) ^ 1) + (28943357025005305778231 / 209715200000000000000000) * (s ^ 9 * (1 - s) ^ 0)).
  { clear E. repeat apply Rplus_le_le_0_compat; apply Rmult_le_pos; try lra; apply bpos; exact Hs. }
  lra.
Qed.

Lemma up_B_5_4_p x : (5 / 4) <= x <= (3 / 2) -> ga * ((457833363 / 1000000000) * T4 (((25 / 16) - x * x) / 2)) - (gb * (3 - x) * (3 - x) + gc * (3 / 2 - x)) <= 358 / 1000.
Proof.
  intros Hx. set (s := (x - (5 / 4)) / (1 / 4)). assert (Hs : 0 <= s <= 1) by (unfold s; lra).
  assert (Ex : x = (5 / 4) + (1 / 4) * s) by (unfold s; field). clearbody s. subst x.
  assert (E : 358 / 1000 - (ga * ((457833363 / 1000000000) * T4 (((25 / 16) - ((5 / 4) + (1 / 4) * s) * ((5 / 4) + (1 / 4) * s)) / 2)) - (gb * (3 - ((5 / 4) + (1 / 4) * s)) * (3 - ((5 / 4) + (1 / 4) * s)) + gc * (3 / 2 - ((5 / 4) + (1 / 4) * s)))) =
    (3454032469201963 / 25000000000000000) * (s ^ 0 * (1 - s) ^ 9) + (454201708328447857 / 400000000000000000) * (s ^ 1 * (1 - s) ^ 8) + (52702750198678012043 / 12800000000000000000) * (s ^ 2 * (1 - s) ^ 7) + (1760411718993298133043 / 204800000000000000000) * (s ^ 3 * (1 - s) ^ 6) + (29606954590035286386221 / 2621440000000000000000) * (s ^ 4 * (1 - s) ^ 5) + (125389183248209977451599 / 13107200000000000000000) * (s ^ 5 * (1 - s) ^ 4) + (134029965251235078197391 / 26214400000000000000000) * (s ^ 6 * (1 - s) ^ 3) + (20842896744870584650193 / 13107200000000000000000) * (s ^ 7 * (1 - s) ^ 2) + (48265264047446997622649 / 209715200000000000000000) * (s ^ 8 * (1 - s) ^ 1) + (1010351524166871933953 / 209715200000000000000000) * (s ^ 9 * (1 - s) ^ 0)) by (unfold T3, T4, ga, gb, gc; field).
  assert (P : 0 <= (3454032469201963 / 25000000000000000) * (s ^ 0 * (1 - s) ^ 9) + (454201708328447857 / 400000000000000000) * (s ^ 1 * (1 - s) ^ 8) + (52702750198678012043 / 12800000000000000000) * (s ^ 2 * (1 - s) ^ 7) + (1760411718993298133043 / 204800000000000000000) * (s ^ 3 * (1 - s) ^ 6) + (29606954590035286386221 / 2621440000000000000000) * (s ^ 4 * (1 - s) ^ 5) + (125389183248209977451599 / 13107200000000000000000) * (s ^ 5 * (1 - s) ^ 4) + (134029965251235078197391 / 26214400000000000000000) * (s ^ 6 * (1 - s) ^ 3) + (20842896744870584650193 / 13107200000000000000000) * (s ^ 7 * (1 - s) ^ 2) + (48265264047446997622649 / 209715200000000000000000) * (s ^ 8 * (1 - s) ^ 1) + (1010351524166871933953 / 209715200000000000000000) * (s ^ 9 * (1 - s) ^ 0)).
  { clear E. repeat apply Rplus_le_le_0_compat; apply Rmult_le_pos; try lra; apply bpos; exact Hs. }
  lra.
Qed.

Lemma up_C_3_2_p x : (3 / 2) <= x <= (9 / 4) -> ga * ((324652469 / 1000000000) * T4 (((9 / 4) - x * x) / 2)) - (gb * (3 - x) * (3 - x)) <= 358 / 1000.
Proof.
  intros Hx. set (s := (x - (3 / 2)) / (3 / 4)). assert (Hs : 0 <= s <= 1) by (unfold s; lra).
  assert (Ex : x = (3 / 2) + (3 / 4) * s) by (unfold s; field). clearbody s. subst x.
  assert (E : 358 / 1000 - (ga * ((324652469 / 1000000000) * T4 (((9 / 4) - ((3 / 2) + (3 / 4) * s) * ((3 / 2) + (3 / 4) * s)) / 2)) - (gb * (3 - ((3 / 2) + (3 / 4) * s)) * (3 - ((3 / 2) + (3 / 4) * s)))) =
    (128015970569269 / 25000000000000000) * (s ^ 0 * (1 - s) ^ 9) + (221806660333363947 / 200000000000000000) * (s ^ 1 * (1 - s) ^ 8) + (25672874144525510769 / 3200000000000000000) * (s ^ 2 * (1 - s) ^ 7) + (642234198487567070109 / 25600000000000000000) * (s ^ 3 * (1 - s) ^ 6) + (35973761022665650930383 / 819200000000000000000) * (s ^ 4 * (1 - s) ^ 5) + (4806744602997215466711 / 102400000000000000000) * (s ^ 5 * (1 - s) ^ 4) + (204037572110332477854729 / 6553600000000000000000) * (s ^ 6 * (1 - s) ^ 3) + (159455279764244388856509 / 13107200000000000000000) * (s ^ 7 * (1 - s) ^ 2) + (485686332461940830276967 / 209715200000000000000000) * (s ^ 8 * (1 - s) ^ 1) + (18481699683381398100407 / 209715200000000000000000) * (s ^ 9 * (1 - s) ^ 0)) by (unfold T3, T4, ga, gb, gc; field).
  assert (P : 0 <= (128015970569269 / 25000000000000000) * (s ^ 0 * (1 - s) ^ 9) + (221806660333363947 / 200000000000000000) * (s ^ 1 * (1 - s) ^ 8) + (25672874144525510769 / 3200000000000000000) * (s ^ 2 * (1 - s) ^ 7) + (642234198487567070109 / 25600000000000000000) * (s ^ 3 * (1 - s) ^ 6) + (35973761022665650930383 / 819200000000000000000) * (s ^ 4 * (1 - s) ^ 5) + (4806744602997215466711 / 102400000000000000000) * (s ^ 5 * (1 - s) ^ 4) + (204037572110332477854729 / 6553600000000000000000) * (s ^ 6 * (1 - s) ^ 3) + (159455279764244388856509 / 13107200000000000000000) * (s ^ 7 * (1 - s) ^ 2) + (485686332461940830276967 / 209715200000000000000000) * (s ^ 8 * (1 - s) ^ 1) + (18481699683381398100407 / 209715200000000000000000) * (s ^ 9 * (1 - s) ^ 0)).
  { clear E. repeat apply Rplus_le_le_0_compat; apply Rmult_le_pos; try lra; apply bpos; exact Hs. }
  lra.
Qed.

Lemma up_C_9_4_p x : (9 / 4) <= x <= (5 / 2) -> ga * ((7955951 / 100000000) * T4 (((81 / 16) - x * x) / 2)) - (gb * (3 - x) * (3 - x)) <= 358 / 1000.
Proof.
  intros Hx. set (s := (x - (9 / 4)) / (1 / 4)). assert (Hs : 0 <= s <= 1) by (unfold s; lra).
  assert (Ex : x = (9 / 4) + (1 / 4) * s) by (unfold s; field). clearbody s. subst x.
  assert (E : 358 / 1000 - (ga * ((7955951 / 100000000) * T4 (((81 / 16) - ((9 / 4) + (1 / 4) * s) * ((9 / 4) + (1 / 4) * s)) / 2)) - (gb * (3 - ((9 / 4) + (1 / 4) * s)) * (3 - ((9 / 4) + (1 / 4) * s)))) =
    (744597440050651 / 2500000000000000) * (s ^ 0 * (1 - s) ^ 9) + (20605200429805077 / 8000000000000000) * (s ^ 1 * (1 - s) ^ 8) + (12613452061085504143 / 1280000000000000000) * (s ^ 2 * (1 - s) ^ 7) + (89689750091574392807 / 4096000000000000000) * (s ^ 3 * (1 - s) ^ 6) + (40830382420803468019461 / 1310720000000000000000) * (s ^ 4 * (1 - s) ^ 5) + (7715488390381237971271 / 262144000000000000000) * (s ^ 5 * (1 - s) ^ 4) + (9686165831185960611783 / 524288000000000000000) * (s ^ 6 * (1 - s) ^ 3) + (9741320711861508081579 / 1310720000000000000000) * (s ^ 7 * (1 - s) ^ 2) + (36472734502468170065549 / 20971520000000000000000) * (s ^ 8 * (1 - s) ^ 1) + (3783401390123114881301 / 20971520000000000000000) * (s ^ 9 * (1 - s) ^ 0)) by (unfold T3, T4, ga, gb, gc; field).
  assert (P : 0 <= (744597440050651 / 2500000000000000) * (s ^ 0 * (1 - s) ^ 9) + (20605200429805077 / 8000000000000000) * (s ^ 1 * (1 - s) ^ 8) + (12613452061085504143 / 1280000000000000000) * (s ^ 2 * (1 - s) ^ 7) + (89689750091574392807 / 4096000000000000000) * (s ^ 3 * (1 - s) ^ 6) + (40830382420803468019461 / 1310720000000000000000) * (s ^ 4 * (1 - s) ^ 5) + (7715488390381237971271 / 262144000000000000000) * (s ^ 5 * (1 - s) ^ 4) + (9686165831185960611783 / 524288000000000000000) * (s ^ 6 * (1 - s) ^ 3) + (9741320711861508081579 / 1310720000000000000000) * (s ^ 7 * (1 - s) ^ 2) + (36472734502468170065549 / 20971520000000000000000) * (s ^ 8 * (1 - s) ^ 1) + (3783401390123114881301 / 20971520000000000000000) * (s ^ 9 * (1 - s) ^ 0)).
  { clear E. repeat apply Rplus_le_le_0_compat; apply Rmult_le_pos; try lra; apply bpos; exact Hs. }
  lra.
Qed.

Lemma up_C_5_2_p x : (5 / 2) <= x <= 3 -> ga * ((8787387 / 200000000) * T4 (((25 / 4) - x * x) / 2)) - (gb * (3 - x) * (3 - x)) <= 358 / 1000.
Proof.
  intros Hx. set (s := (x - (5 / 2)) / (1 / 2)). assert (Hs : 0 <= s <= 1) by (unfold s; lra).
  assert (Ex : x = (5 / 2) + (1 / 2) * s) by (unfold s; field). clearbody s. subst x.
  assert (E : 358 / 1000 - (ga * ((8787387 / 200000000) * T4 (((25 / 4) - ((5 / 2) + (1 / 2) * s) * ((5 / 2) + (1 / 2) * s)) / 2)) - (gb * (3 - ((5 / 2) + (1 / 2) * s)) * (3 - ((5 / 2) + (1 / 2) * s)))) =
    (905923246193787 / 5000000000000000) * (s ^ 0 * (1 - s) ^ 9) + (28154177019507397 / 20000000000000000) * (s ^ 1 * (1 - s) ^ 8) + (772236097715800311 / 160000000000000000) * (s ^ 2 * (1 - s) ^ 7) + (1244047836190202687 / 128000000000000000) * (s ^ 3 * (1 - s) ^ 6) + (132628993022674959601 / 10240000000000000000) * (s ^ 4 * (1 - s) ^ 5) + (124578951574744116051 / 10240000000000000000) * (s ^ 5 * (1 - s) ^ 4) + (168073689320635737667 / 20480000000000000000) * (s ^ 6 * (1 - s) ^ 3) + (7825018152401125831 / 2048000000000000000) * (s ^ 7 * (1 - s) ^ 2) + (7112403225771466041 / 6553600000000000000) * (s ^ 8 * (1 - s) ^ 1) + (22633614709169477977 / 163840000000000000000) * (s ^ 9 * (1 - s) ^ 0)) by (unfold T3, T4, ga, gb, gc; field).
  assert (P : 0 <= (905923246193787 / 5000000000000000) * (s ^ 0 * (1 - s) ^ 9) + (28154177019507397 / 20000000000000000) * (s ^ 1 * (1 - s) ^ 8) + (772236097715800311 / 160000000000000000) * (s ^ 2 * (1 - s) ^ 7) + (1244047836190202687 / 128000000000000000) * (s ^ 3 * (1 - s) ^ 6) + (132628993022674959601 / 10240000000000000000) * (s ^ 4 * (1 - s) ^ 5) + (124578951574744116051 / 10240000000000000000) * (s ^ 5 * (1 - s) ^ 4) + (168073689320635737667 / 20480000000000000000) * (s ^ 6 * (1 - s) ^ 3) + (7825018152401125831 / 2048000000000000000) * (s ^ 7 * (1 - s) ^ 2) + (7112403225771466041 / 6553600000000000000) * (s ^ 8 * (1 - s) ^ 1) + (22633614709169477977 / 163840000000000000000) * (s ^ 9 * (1 - s) ^ 0)).
  { clear E. repeat apply Rplus_le_le_0_compat; apply Rmult_le_pos; try lra; apply bpos; exact Hs. }
  lra.
Qed.

Lemma lo_A_0_1_p x : 0 <= x <= (3 / 10) -> 0 <= ga * (1 * T3 ((0 - x * x) / 2)) - (2 * gb * (3 - x * x) + gc * (3 / 2 - x)).
Proof.
  intros Hx. set (s := (x - 0) / (3 / 10)). assert (Hs : 0 <= s <= 1) by (unfold s; lra).
  assert (Ex : x = 0 + (3 / 10) * s) by (unfold s; field). clearbody s. subst x.
  assert (E : (ga * (1 * T3 ((0 - (0 + (3 / 10) * s) * (0 + (3 / 10) * s)) / 2)) - (2 * gb * (3 - (0 + (3 / 10) * s) * (0 + (3 / 10) * s)) + gc * (3 / 2 - (0 + (3 / 10) * s)))) =
    (2669451 / 50000000) * (s ^ 0 * (1 - s) ^ 7) + (255271443 / 250000000) * (s ^ 1 * (1 - s) ^ 6) + (2902612167 / 625000000) * (s ^ 2 * (1 - s) ^ 5) + (1221653307 / 125000000) * (s ^ 3 * (1 - s) ^ 4) + (22443853840719 / 2000000000000) * (s ^ 4 * (1 - s) ^ 3) + (14546199074157 / 2000000000000) * (s ^ 5 * (1 - s) ^ 2) + (1001981021061243 / 400000000000000) * (s ^ 6 * (1 - s) ^ 1) + (142814478053643 / 400000000000000) * (s ^ 7 * (1 - s) ^ 0)) by (unfold T3, T4, ga, gb, gc; field).
  assert (P : 0 <= (2669451 / 50000000) * (s ^ 0 * (1 - s) ^ 7) + (255271443 / 250000000) * (s ^ 1 * (1 - s) ^ 6) + (2902612167 / 625000000) * (s ^ 2 * (1 - s) ^ 5) + (1221653307 / 125000000) * (s ^ 3 * (1 - s) ^ 4) + (22443853840719 / 2000000000000) * (s ^ 4 * (1 - s) ^ 3) + (14546199074157 / 2000000000000) * (s ^ 5 * (1 - s) ^ 2) + (1001981021061243 / 400000000000000) * (s ^ 6 * (1 - s) ^ 1) + (142814478053643 / 400000000000000) * (s ^ 7 * (1 - s) ^ 0)).
  { clear E. repeat apply Rplus_le_le_0_compat; apply Rmult_le_pos; try lra; apply bpos; exact Hs. }
  lra.
Qed.

Lemma lo_A_3_10_p x : (3 / 10) <= x <= (1 / 2) -> 0 <= ga * ((23899937 / 25000000) * T3 (((9 / 100) - x * x) / 2)) - (2 * gb * (3 - x * x) + gc * (3 / 2 - x)).
Proof.
  intros Hx. set (s := (x - (3 / 10)) / (1 / 5)). assert (Hs : 0 <= s <= 1) by (unfold s; lra).
  assert (Ex : x = (3 / 10) + (1 / 5) * s) by (unfold s; field). clearbody s. subst x.
  assert (E : (ga * ((23899937 / 25000000) * T3 (((9 / 100) - ((3 / 10) + (1 / 5) * s) * ((3 / 10) + (1 / 5) * s)) / 2)) - (2 * gb * (3 - ((3 / 10) + (1 / 5) * s) * ((3 / 10) + (1 / 5) * s)) + gc * (3 / 2 - ((3 / 10) + (1 / 5) * s)))) =
    (223149453708663 / 625000000000000) * (s ^ 0 * (1 - s) ^ 7) + (77984068509531061 / 31250000000000000) * (s ^ 1 * (1 - s) ^ 6) + (23000341287066158267 / 3125000000000000000) * (s ^ 2 * (1 - s) ^ 5) + (1856880196856820837683 / 156250000000000000000) * (s ^ 3 * (1 - s) ^ 4) + (354725582833272049483 / 31250000000000000000) * (s ^ 4 * (1 - s) ^ 3) + (501235667398936261829 / 78125000000000000000) * (s ^ 5 * (1 - s) ^ 2) + (38812677397633382229 / 19531250000000000000) * (s ^ 6 * (1 - s) ^ 1) + (2541367932847018891 / 9765625000000000000) * (s ^ 7 * (1 - s) ^ 0)) by (unfold T3, T4, ga, gb, gc; field).
  assert (P : 0 <= (223149453708663 / 625000000000000) * (s ^ 0 * (1 - s) ^ 7) + (77984068509531061 / 31250000000000000) * (s ^ 1 * (1 - s) ^ 6) + (23000341287066158267 / 3125000000000000000) * (s ^ 2 * (1 - s) ^ 5) + (1856880196856820837683 / 156250000000000000000) * (s ^ 3 * (1 - s) ^ 4) + (354725582833272049483 / 31250000000000000000) * (s ^ 4 * (1 - s) ^ 3) + (501235667398936261829 / 78125000000000000000) * (s ^ 5 * (1 - s) ^ 2) + (38812677397633382229 / 19531250000000000000) * (s ^ 6 * (1 - s) ^ 1) + (2541367932847018891 / 9765625000000000000) * (s ^ 7 * (1 - s) ^ 0)).
  { clear E. repeat apply Rplus_le_le_0_compat; apply Rmult_le_pos; try lra; apply bpos; exact Hs. }
  lra.
Qed.

Lemma lo_A_1_2_p x : (1 / 2) <= x <= (3 / 4) -> 0 <= ga * ((882496901 / 1000000000) * T3 (((1 / 4) - x * x) / 2)) - (2 * gb * (3 - x * x) + gc * (3 / 2 - x)).
Proof.
  intros Hx. set (s := (x - (1 / 2)) / (1 / 4)). assert (Hs : 0 <= s <= 1) by (unfold s; lra).
  assert (Ex : x = (1 / 2) + (1 / 4) * s) by (unfold s; field). clearbody s. subst x.
  assert (E : (ga * ((882496901 / 1000000000) * T3 (((1 / 4) - ((1 / 2) + (1 / 4) * s) * ((1 / 2) + (1 / 4) * s)) / 2)) - (2 * gb * (3 - ((1 / 2) + (1 / 4) * s) * ((1 / 2) + (1 / 4) * s)) + gc * (3 / 2 - ((1 / 2) + (1 / 4) * s)))) =
    (6506604388255899 / 25000000000000000) * (s ^ 0 * (1 - s) ^ 7) + (64603138245814889 / 40000000000000000) * (s ^ 1 * (1 - s) ^ 6) + (13308795145819522511 / 3200000000000000000) * (s ^ 2 * (1 - s) ^ 5) + (146773834609597991163 / 25600000000000000000) * (s ^ 3 * (1 - s) ^ 4) + (464846813266190547147 / 102400000000000000000) * (s ^ 4 * (1 - s) ^ 3) + (838391687916065655433 / 409600000000000000000) * (s ^ 5 * (1 - s) ^ 2) + (157978670916855922787 / 327680000000000000000) * (s ^ 6 * (1 - s) ^ 1) + (74725597464550581179 / 1638400000000000000000) * (s ^ 7 * (1 - s) ^ 0)) by (unfold T3, T4, ga, gb, gc; field).
  assert (P : 0 <= (6506604388255899 / 25000000000000000) * (s ^ 0 * (1 - s) ^ 7) + (64603138245814889 / 40000000000000000) * (s ^ 1 * (1 - s) ^ 6) + (13308795145819522511 / 3200000000000000000) * (s ^ 2 * (1 - s) ^ 5) + (146773834609597991163 / 25600000000000000000) * (s ^ 3 * (1 - s) ^ 4) + (464846813266190547147 / 102400000000000000000) * (s ^ 4 * (1 - s) ^ 3) + (838391687916065655433 / 409600000000000000000) * (s ^ 5 * (1 - s) ^ 2) + (157978670916855922787 / 327680000000000000000) * (s ^ 6 * (1 - s) ^ 1) + (74725597464550581179 / 1638400000000000000000) * (s ^ 7 * (1 - s) ^ 0)).
  { clear E. repeat apply Rplus_le_le_0_compat; apply Rmult_le_pos; try lra; apply bpos; exact Hs. }
  lra.
Qed.

Lemma lo_A_3_4_p x : (3 / 4) <= x <= (7 / 8) -> 0 <= ga * ((1887099 / 2500000) * T3 (((9 / 16) - x * x) / 2)) - (2 * gb * (3 - x * x) + gc * (3 / 2 - x)).
Proof.
  intros Hx. set (s := (x - (3 / 4)) / (1 / 8)). assert (Hs : 0 <= s <= 1) by (unfold s; lra).
  assert (Ex : x = (3 / 4) + (1 / 8) * s) by (unfold s; field). clearbody s. subst x.
  assert (E : (ga * ((1887099 / 2500000) * T3 (((9 / 16) - ((3 / 4) + (1 / 8) * s) * ((3 / 4) + (1 / 8) * s)) / 2)) - (2 * gb * (3 - ((3 / 4) + (1 / 8) * s) * ((3 / 4) + (1 / 8) * s)) + gc * (3 / 2 - ((3 / 4) + (1 / 8) * s)))) =
    (718448198619 / 15625000000000) * (s ^ 0 * (1 - s) ^ 7) + (482650175782321 / 2000000000000000) * (s ^ 1 * (1 - s) ^ 6) + (65434640532666749 / 128000000000000000) * (s ^ 2 * (1 - s) ^ 5) + (2266513726355892419 / 4096000000000000000) * (s ^ 3 * (1 - s) ^ 4) + (5217295220029673483 / 16384000000000000000) * (s ^ 4 * (1 - s) ^ 3) + (243763472735794237 / 2621440000000000000) * (s ^ 5 * (1 - s) ^ 2) + (3695662468218832097 / 262144000000000000000) * (s ^ 6 * (1 - s) ^ 1) + (540940812140057853 / 262144000000000000000) * (s ^ 7 * (1 - s) ^ 0)) by (unfold T3, T4, ga, gb, gc; field).
  assert (P : 0 <= (718448198619 / 15625000000000) * (s ^ 0 * (1 - s) ^ 7) + (482650175782321 / 2000000000000000) * (s ^ 1 * (1 - s) ^ 6) + (65434640532666749 / 128000000000000000) * (s ^ 2 * (1 - s) ^ 5) + (2266513726355892419 / 4096000000000000000) * (s ^ 3 * (1 - s) ^ 4) + (5217295220029673483 / 16384000000000000000) * (s ^ 4 * (1 - s) ^ 3) + (243763472735794237 / 2621440000000000000) * (s ^ 5 * (1 - s) ^ 2) + (3695662468218832097 / 262144000000000000000) * (s ^ 6 * (1 - s) ^ 1) + (540940812140057853 / 262144000000000000000) * (s ^ 7 * (1 - s) ^ 0)).
  { clear E. repeat apply Rplus_le_le_0_compat; apply Rmult_le_pos; try lra; apply bpos; exact Hs. }
  lra.
Qed.

Lemma lo_A_7_8_p x : (7 / 8) <= x <= (15 / 16) -> 0 <= ga * ((2727763 / 4000000) * T3 (((49 / 64) - x * x) / 2)) - (2 * gb * (3 - x * x) + gc * (3 / 2 - x)).
Proof.
  intros Hx. set (s := (x - (7 / 8)) / (1 / 16)). assert (Hs : 0 <= s <= 1) by (unfold s; lra).
  assert (Ex : x = (7 / 8) + (1 / 16) * s) by (unfold s; field). clearbody s. subst x.
  assert (E : (ga * ((2727763 / 4000000) * T3 (((49 / 64) - ((7 / 8) + (1 / 16) * s) * ((7 / 8) + (1 / 16) * s)) / 2)) - (2 * gb * (3 - ((7 / 8) + (1 / 16) * s) * ((7 / 8) + (1 / 16) * s)) + gc * (3 / 2 - ((7 / 8) + (1 / 16) * s)))) =
    (212091942387 / 100000000000000) * (s ^ 0 * (1 - s) ^ 7) + (193828267688293 / 12800000000000000) * (s ^ 1 * (1 - s) ^ 6) + (194492621704856957 / 3276800000000000000) * (s ^ 2 * (1 - s) ^ 5) + (60738176043914316679 / 419430400000000000000) * (s ^ 3 * (1 - s) ^ 4) + (71911310295294332279 / 335544320000000000000) * (s ^ 4 * (1 - s) ^ 3) + (49663398841599052177 / 268435456000000000000) * (s ^ 5 * (1 - s) ^ 2) + (2296913236476800501577 / 26843545600000000000000) * (s ^ 6 * (1 - s) ^ 1) + (439964124165654822421 / 26843545600000000000000) * (s ^ 7 * (1 - s) ^ 0)) by (unfold T3, T4, ga, gb, gc; field).
  assert (P : 0 <= (212091942387 / 100000000000000) * (s ^ 0 * (1 - s) ^ 7) + (193828267688293 / 12800000000000000) * (s ^ 1 * (1 - s) ^ 6) + (194492621704856957 / 3276800000000000000) * (s ^ 2 * (1 - s) ^ 5) + (60738176043914316679 / 419430400000000000000) * (s ^ 3 * (1 - s) ^ 4) + (71911310295294332279 / 335544320000000000000) * (s ^ 4 * (1 - s) ^ 3) + (49663398841599052177 / 268435456000000000000) * (s ^ 5 * (1 - s) ^ 2) + (2296913236476800501577 / 26843545600000000000000) * (s ^ 6 * (1 - s) ^ 1) + (439964124165654822421 / 26843545600000000000000) * (s ^ 7 * (1 - s) ^ 0)).
  { clear E. repeat apply Rplus_le_le_0_compat; apply Rmult_le_pos; try lra; apply bpos; exact Hs. }
  lra.
Qed.

Lemma lo_A_15_16_p x : (15 / 16) <= x <= 1 -> 0 <= ga * ((644388723 / 1000000000) * T3 (((225 / 256) - x * x) / 2)) - (2 * gb * (3 - x * x) + gc * (3 / 2 - x)).
Proof.
  intros Hx. set (s := (x - (15 / 16)) / (1 / 16)). assert (Hs : 0 <= s <= 1) by (unfold s; lra).
  assert (Ex : x = (15 / 16) + (1 / 16) * s) by (unfold s; field). clearbody s. subst x.
  assert (E : (ga * ((644388723 / 1000000000) * T3 (((225 / 256) - ((15 / 16) + (1 / 16) * s) * ((15 / 16) + (1 / 16) * s)) / 2)) - (2 * gb * (3 - ((15 / 16) + (1 / 16) * s) * ((15 / 16) + (1 / 16) * s)) + gc * (3 / 2 - ((15 / 16) + (1 / 16) * s)))) =
    (102468676227513 / 6250000000000000) * (s ^ 0 * (1 - s) ^ 7) + (921271651009928029 / 6400000000000000000) * (s ^ 1 * (1 - s) ^ 6) + (1753840290223998158477 / 3276800000000000000000) * (s ^ 2 * (1 - s) ^ 5) + (183149210256965548014707 / 167772160000000000000000) * (s ^ 3 * (1 - s) ^ 4) + (2213677591922988042546411 / 1677721600000000000000000) * (s ^ 4 * (1 - s) ^ 3) + (3173567078785615350246647 / 3355443200000000000000000) * (s ^ 5 * (1 - s) ^ 2) + (2500651920496981539063977 / 6710886400000000000000000) * (s ^ 6 * (1 - s) ^ 1) + (418126195303838271395951 / 6710886400000000000000000) * (s ^ 7 * (1 - s) ^ 0)) by (unfold T3, T4, ga, gb, gc; field).
  assert (P : 0 <= (102468676227513 / 6250000000000000) * (s ^ 0 * (1 - s) ^ 7) + (921271651009928029 / 6400000000000000000) * (s ^ 1 * (1 - s) ^ 6) + (1753840290223998158477 / 3276800000000000000000) * (s ^ 2 * (1 - s) ^ 5) + (183149210256965548014707 / 167772160000000000000000) * (s ^ 3 * (1 - s) ^ 4) + (2213677591922988042546411 / 1677721600000000000000000) * (s ^ 4 * (1 - s) ^ 3) + (3173567078785615350246647 / 3355443200000000000000000) * (s ^ 5 * (1 - s) ^ 2) + (2500651920496981539063977 / 6710886400000000000000000) * (s ^ 6 * (1 - s) ^ 1) + (418126195303838271395951 / 6710886400000000000000000) * (s ^ 7 * (1 - s) ^ 0)).
  { clear E. repeat apply Rplus_le_le_0_compat; apply Rmult_le_pos; try lra; apply bpos; exact Hs. }
  lra.
Qed.

Lemma lo_B_1_1_p x : 1 <= x <= (3 / 2) -> 0 <= ga * ((303265329 / 500000000) * T3 ((1 - x * x) / 2)) - (gb * (3 - x) * (3 - x) + gc * (3 / 2 - x)).
Proof.
  intros Hx. set (s := (x - 1) / (1 / 2)). assert (Hs : 0 <= s <= 1) by (unfold s; lra).
  assert (Ex : x = 1 + (1 / 2) * s) by (unfold s; field). clearbody s. subst x.
  assert (E : (ga * ((303265329 / 500000000) * T3 ((1 - (1 + (1 / 2) * s) * (1 + (1 / 2) * s)) / 2)) - (gb * (3 - (1 + (1 / 2) * s)) * (3 - (1 + (1 / 2) * s)) + gc * (3 / 2 - (1 + (1 / 2) * s)))) =
    (778898704125871 / 12500000000000000) * (s ^ 0 * (1 - s) ^ 7) + (23612404653636323 / 25000000000000000) * (s ^ 1 * (1 - s) ^ 6) + (23540402415257839 / 6250000000000000) * (s ^ 2 * (1 - s) ^ 5) + (728798951725733577 / 100000000000000000) * (s ^ 3 * (1 - s) ^ 4) + (12981456287853346577 / 1600000000000000000) * (s ^ 4 * (1 - s) ^ 3) + (17205083658594184823 / 3200000000000000000) * (s ^ 5 * (1 - s) ^ 2) + (25087002695836979771 / 12800000000000000000) * (s ^ 6 * (1 - s) ^ 1) + (3750837780204264039 / 12800000000000000000) * (s ^ 7 * (1 - s) ^ 0)) by (unfold T3, T4, ga, gb, gc; field).
  assert (P : 0 <= (778898704125871 / 12500000000000000) * (s ^ 0 * (1 - s) ^ 7) + (23612404653636323 / 25000000000000000) * (s ^ 1 * (1 - s) ^ 6) + (23540402415257839 / 6250000000000000) * (s ^ 2 * (1 - s) ^ 5) + (728798951725733577 / 100000000000000000) * (s ^ 3 * (1 - s) ^ 4) + (12981456287853346577 / 1600000000000000000) * (s ^ 4 * (1 - s) ^ 3) + (17205083658594184823 / 3200000000000000000) * (s ^ 5 * (1 - s) ^ 2) + (25087002695836979771 / 12800000000000000000) * (s ^ 6 * (1 - s) ^ 1) + (3750837780204264039 / 12800000000000000000) * (s ^ 7 * (1 - s) ^ 0)).
  { clear E. repeat apply Rplus_le_le_0_compat; apply Rmult_le_pos; try lra; apply bpos; exact Hs. }
  lra.
Qed.
