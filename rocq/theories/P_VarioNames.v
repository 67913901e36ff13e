(** Type names; the correlation functions at one range and at half a range. *)
From Coq Require Import ZArith QArith Qreals List Bool String Ascii Lia Reals Lra Psatz.
From Verif Require Import Base Arith RealArith M_Variogram S_Vario P_RBounds P_QBounds P_Cov P_Vario.
Import ListNotations.

Definition up_char (a : ascii) : ascii := match toupper a with Ok c => c | _ => a end.
Fixpoint up (s : string) : string := match s with EmptyString => EmptyString | String a s => String (up_char a) (up s) end.

Lemma char_facts a : (nat_of_ascii a < 128)%nat ->
  toupper a = Ok (up_char (lower_char a)) /\ lower_char (up_char (lower_char a)) = lower_char a.
Proof.
  destruct a as [[] [] [] [] [] [] [] []]; cbv; intros H; try (split; reflexivity); exfalso; lia.
Qed.
Lemma Uppercase_ascii s : is_ascii s -> Uppercase s = Ok (up (lower s)) /\ lower (up (lower s)) = lower s.
Proof.
  induction s as [|a s IH]; cbn [is_ascii]; [split; reflexivity|]. intros [Ha Hs].
  destruct (char_facts a Ha) as [H1 H2], (IH Hs) as [H3 H4]. cbn [Uppercase lower up]. rewrite H1. cbn [bind]. rewrite H3. cbn [bind].
  split; [reflexivity|]. rewrite H2, H4. reflexivity.
Qed.
Lemma Uppercase_bad s : ~ is_ascii s -> Uppercase s = UB BadChar.
Proof.
  induction s as [|a s IH]; cbn [is_ascii]; [tauto|]. intros H. cbn [Uppercase]. unfold toupper.
  destruct (Nat.leb_spec 128 (nat_of_ascii a)) as [L|L]; [reflexivity|].
  rewrite IH by tauto. destruct ((97 <=? nat_of_ascii a) && (nat_of_ascii a <=? 122))%nat; reflexivity.
Qed.

(** the type a name selects *)
Lemma name_type s : is_ascii s ->
  exists t, lookup_type s = Some t /\
    ((exists n, In (n, t) documented /\ lower s = n) \/ (t = SPHERICAL /\ forall n t', In (n, t') documented -> lower s <> n)).
Proof.
  intros H. destruct (Uppercase_ascii s H) as [E1 E2]. unfold lookup_type. rewrite E1. eexists. split; [reflexivity|].
  unfold type_of_name.
  repeat (match goal with |- context [String.eqb ?a ?b] => destruct (String.eqb_spec a b) as [E|?] end;
    [left; rewrite E in E2; cbn in E2; eexists; split; [|symmetry; exact E2]; cbn; tauto|]).
  right. split; auto. intros nm t' Hin El. rewrite El in *. cbn [documented In] in Hin.
  repeat match goal with H : _ \/ _ |- _ => destruct H as [H|H] end; try contradiction;
    match goal with H : (_, _) = (_, _) |- _ => injection H as <- <- end;
    match goal with H : _ <> _ |- _ => exfalso; apply H; vm_compute; reflexivity end.
Qed.

Section Names.
Context {A : Arith}.
Lemma Create_total s main perp depth a d (pw : num A) : is_ascii s ->
  exists v, CreateVariogram s main perp depth a d pw = Ok v /\ Some (vt v) = lookup_type s.
Proof.
  intros H. destruct (Uppercase_ascii s H) as [E1 _]. unfold CreateVariogram, lookup_type. rewrite E1. cbn [bind].
  pose proof (type_of_name_real (up (lower s))). destruct (type_of_name (up (lower s))); try congruence; eexists; split; reflexivity.
Qed.
Lemma names_documented s n t main perp depth a d (pw : num A) : In (n, t) documented -> lower s = n -> is_ascii s ->
  exists v, CreateVariogram s main perp depth a d pw = Ok v /\ vt v = t.
Proof.
  intros Hin Hl Ha. destruct (Create_total s main perp depth a d pw Ha) as (v & E & Et). exists v. split; [exact E|].
  destruct (name_type s Ha) as (t' & El & H). rewrite El in Et. injection Et as ->.
  destruct H as [(n' & Hin' & Hl')|[_ H]]; [|exfalso; eapply H; eauto]. subst n. subst n'. revert Hin Hin'. generalize (lower s). intros n.
  cbn [documented In]. intros; repeat match goal with H : _ \/ _ |- _ => destruct H as [H|H] end; try contradiction;
    repeat match goal with H : (_, _) = (_, _) |- _ => injection H; clear H; intros; subst end; congruence.
Qed.
Lemma names_others s main perp depth a d (pw : num A) : is_ascii s -> (forall n t, In (n, t) documented -> lower s <> n) ->
  exists v, CreateVariogram s main perp depth a d pw = Ok v /\ vt v = SPHERICAL.
Proof.
  intros Ha H. destruct (Create_total s main perp depth a d pw Ha) as (v & E & Et). exists v. split; [exact E|].
  destruct (name_type s Ha) as (t' & El & H'). rewrite El in Et. injection Et as ->.
  destruct H' as [(n' & Hin' & Hl')|[-> _]]; auto. exfalso. eapply H; eauto.
Qed.
Lemma names_bad s main perp depth a d (pw : num A) : ~ is_ascii s -> CreateVariogram s main perp depth a d pw = UB BadChar.
Proof. intros H. unfold CreateVariogram. rewrite Uppercase_bad by auto. reflexivity. Qed.
Lemma names_case s s' main perp depth a d (pw : num A) : is_ascii s -> is_ascii s' -> lower s = lower s' ->
  CreateVariogram s main perp depth a d pw = CreateVariogram s' main perp depth a d pw.
Proof.
  intros H H' E. unfold CreateVariogram. destruct (Uppercase_ascii s H) as [-> _], (Uppercase_ascii s' H') as [-> _]. rewrite E. reflexivity.
Qed.
Lemma default_perp s main perp depth a d (pw : num A) : flt A perp (lit A 0 0) = true -> flt A main (lit A 0 0) = false ->
  CreateVariogram s main perp depth a d pw = CreateVariogram s main main depth a d pw.
Proof. intros H H'. unfold CreateVariogram. rewrite H, H'. reflexivity. Qed.
Lemma default_depth s main perp depth a d (pw : num A) : flt A depth (lit A 0 0) = true -> flt A main (lit A 0 0) = false ->
  CreateVariogram s main perp depth a d pw = CreateVariogram s main perp main a d pw.
Proof. intros H H'. unfold CreateVariogram. rewrite H, H'. reflexivity. Qed.
End Names.

Open Scope R_scope.
(** ** values at one range *)
Lemma q2r a b : Q2R (a # b) = IZR a / IZR (Zpos b).
Proof. reflexivity. Qed.
Ltac eb a b lo hi n k := 
  let H := fresh "EB" in pose proof (exp_neg_between a b lo hi n k ltac:(vm_compute; reflexivity)) as H; rewrite !q2r in H.


(** the seven numbers *)
Lemma at_values :
  497870 / 10000000 <= exp (- (3 / 1)) <= 497871 / 10000000 /\
  8703761 / 1000000000 <= exp (- (4744 / 1000)) <= 8703762 / 1000000000 /\
  2690575 / 1000000000 <= exp (- (5918 / 1000)) <= 2690577 / 1000000000 /\
  1031233 / 1000000000 <= exp (- (6877 / 1000)) <= 1031234 / 1000000000.
Proof.
  eb 3%Z 1%positive (497870 # 10000000)%Q (497871 # 10000000)%Q 12%nat 4%nat.
  eb 4744%Z 1000%positive (8703761 # 1000000000)%Q (8703762 # 1000000000)%Q 12%nat 5%nat.
  eb 5918%Z 1000%positive (2690575 # 1000000000)%Q (2690577 # 1000000000)%Q 12%nat 6%nat.
  eb 6877%Z 1000%positive (1031233 # 1000000000)%Q (1031234 # 1000000000)%Q 12%nat 7%nat.
  auto.
Qed.
Lemma half_values :
  2231 / 10000 <= exp (- (3 / 2)) <= 2232 / 10000 /\
  4723 / 10000 <= exp (- (3 / 4)) <= 4724 / 10000 /\
  93293 / 1000000 <= exp (- (2372 / 1000)) <= 93294 / 1000000 /\
  51870 / 1000000 <= exp (- (2959 / 1000)) <= 51871 / 1000000 /\
  32112 / 1000000 <= exp (- (34385 / 10000)) <= 32113 / 1000000.
Proof.
  eb 3%Z 2%positive (2231 # 10000)%Q (2232 # 10000)%Q 12%nat 4%nat.
  eb 3%Z 4%positive (4723 # 10000)%Q (4724 # 10000)%Q 12%nat 4%nat.
  eb 2372%Z 1000%positive (93293 # 1000000)%Q (93294 # 1000000)%Q 12%nat 5%nat.
  eb 2959%Z 1000%positive (51870 # 1000000)%Q (51871 # 1000000)%Q 12%nat 6%nat.
  eb 34385%Z 10000%positive (32112 # 1000000)%Q (32113 # 1000000)%Q 12%nat 7%nat.
  auto.
Qed.

Lemma Rpow_1_l p : Rpow 1 p = 1.
Proof. unfold Rpow. destruct (Rlt_dec 0 1); [|lra]. unfold Rpower. rewrite ln_1, Rmult_0_r, exp_0. reflexivity. Qed.

Lemma one_range t p : t <> N_TYPES ->
  match t with
  | SPHERICAL => corr_fun t p 1 = 0
  | CONSTANT => corr_fun t p 1 = 1
  | MATERN32 | MATERN52 | MATERN72 => 4998 / 100000 <= corr_fun t p 1 <= 5003 / 100000
  | _ => 49787 / 1000000 <= corr_fun t p 1 <= 497871 / 10000000
  end.
Proof.
  intros Hn. destruct at_values as (V1 & V2 & V3 & V4). destruct t; try congruence; cbn [corr_fun]; cbv zeta.
  - reflexivity.
  - replace (-3 * 1) with (- (3 / 1)) by lra. lra.
  - destruct (Rlt_dec 1 1); lra.
  - replace (-3 * 1 ^ 2) with (- (3 / 1)) by lra. lra.
  - rewrite Rpow_1_l. replace (-3 * 1) with (- (3 / 1)) by lra. lra.
  - rewrite Rmult_1_r. lra.
  - rewrite Rmult_1_r. replace (1 + 5918 / 1000 + (5918 / 1000) ^ 2 / 3) with (13944181 / 750000) by field. lra.
  - rewrite Rmult_1_r. replace (1 + 6877 / 1000 + 2 / 5 * (6877 / 1000) ^ 2 + (6877 / 1000) ^ 3 / 15) with (727148622133 / 15000000000) by field. lra.
Qed.
Lemma at_one t p : t <> N_TYPES -> t <> SPHERICAL -> t <> CONSTANT -> Rabs (corr_fun t p 1 - 5 / 100) < 1 / 1000.
Proof. intros H1 H2 H3. pose proof (one_range t p H1). apply Rabs_def1; destruct t; try congruence; lra. Qed.

Lemma half_range t p : t <> N_TYPES ->
  match t with
  | SPHERICAL => corr_fun t p (1 / 2) = 3125 / 10000
  | CONSTANT => corr_fun t p (1 / 2) = 1
  | EXPONENTIAL => 2231 / 10000 <= corr_fun t p (1 / 2) <= 2232 / 10000
  | GAUSSIAN => 4723 / 10000 <= corr_fun t p (1 / 2) <= 4724 / 10000
  | MATERN32 => 3145 / 10000 <= corr_fun t p (1 / 2) <= 3146 / 10000
  | MATERN52 => 3567 / 10000 <= corr_fun t p (1 / 2) <= 3568 / 10000
  | MATERN72 => 3814 / 10000 <= corr_fun t p (1 / 2) <= 3815 / 10000
  | _ => True
  end.
Proof.
  intros Hn. destruct half_values as (V1 & V2 & V3 & V4 & V5). destruct t; try congruence; cbn [corr_fun]; cbv zeta; auto.
  - replace (-3 * (1 / 2)) with (- (3 / 2)) by lra. lra.
  - destruct (Rlt_dec (1 / 2) 1); lra.
  - replace (-3 * (1 / 2) ^ 2) with (- (3 / 4)) by lra. lra.
  - replace (4744 / 1000 * (1 / 2)) with (2372 / 1000) by lra. lra.
  - replace (5918 / 1000 * (1 / 2)) with (2959 / 1000) by lra. replace (1 + 2959 / 1000 + (2959 / 1000) ^ 2 / 3) with (20632681 / 3000000) by field. lra.
  - replace (6877 / 1000 * (1 / 2)) with (34385 / 10000) by lra.
    replace (1 + 34385 / 10000 + 2 / 5 * (34385 / 10000) ^ 2 + (34385 / 10000) ^ 3 / 15) with (1425372396133 / 120000000000) by field. lra.
Qed.

Lemma exp_inj x y : exp x = exp y -> x = y.
Proof. intros H. apply (f_equal ln) in H. rewrite !ln_exp in H. exact H. Qed.
(** general exponential at half a range *)
Lemma genexp_half p : p <> 1 -> corr_fun GENERAL_EXPONENTIAL p (1 / 2) <> corr_fun EXPONENTIAL p (1 / 2).
Proof.
  intros Hp E. cbn [corr_fun] in E. apply exp_inj in E. assert (F : Rpow (1 / 2) p = 1 / 2) by lra.
  unfold Rpow in F. destruct (Rlt_dec 0 (1 / 2)); [|lra]. unfold Rpower in F.
  apply (f_equal ln) in F. rewrite ln_exp in F. assert (ln (1 / 2) <> 0).
  { rewrite <- ln_1. intros G. apply ln_inv in G; lra. }
  apply Hp. apply (Rmult_eq_reg_r (ln (1 / 2))); auto. lra.
Qed.
Lemma genexp_half2 p : p <> 2 -> corr_fun GENERAL_EXPONENTIAL p (1 / 2) <> corr_fun GAUSSIAN p (1 / 2).
Proof.
  intros Hp E. cbn [corr_fun] in E. apply exp_inj in E. assert (F : Rpow (1 / 2) p = 1 / 2 * (1 / 2)) by lra.
  unfold Rpow in F. destruct (Rlt_dec 0 (1 / 2)); [|lra]. unfold Rpower in F.
  apply (f_equal ln) in F. rewrite ln_exp, ln_mult in F by lra. assert (ln (1 / 2) <> 0).
  { rewrite <- ln_1. intros G. apply ln_inv in G; lra. }
  apply Hp. apply (Rmult_eq_reg_r (ln (1 / 2))); auto. lra.
Qed.

Lemma functions_differ t t' p : t <> N_TYPES -> t' <> N_TYPES -> p <> 1 -> p <> 2 -> t <> t' ->
  exists d, 0 <= d /\ corr_fun t p d <> corr_fun t' p d.
Proof.
  intros Hn Hn' H1 H2 Hne.
  assert (G : corr_fun t p (1 / 2) <> corr_fun t' p (1 / 2) \/ corr_fun t p 1 <> corr_fun t' p 1).
  { pose proof (one_range t p Hn) as A. pose proof (one_range t' p Hn') as A'.
    pose proof (half_range t p Hn) as B. pose proof (half_range t' p Hn') as B'.
    destruct t, t'; try congruence; try (left; lra); try (right; lra).
    all: left; first [exact (genexp_half p H1)|exact (genexp_half2 p H2)|
       intros E; symmetry in E; revert E; first [exact (genexp_half p H1)|exact (genexp_half2 p H2)]]. }
  destruct G; [exists (1 / 2)|exists 1]; split; auto; lra.
Qed.
Lemma genexp_is_exp d : 0 <= d -> corr_fun GENERAL_EXPONENTIAL 1 d = corr_fun EXPONENTIAL 1 d.
Proof. intros H. cbn [corr_fun]. f_equal. f_equal. change 1 with (INR 1). rewrite Rpow_nat by (auto; lia). ring. Qed.
Lemma genexp_is_gauss d : 0 <= d -> corr_fun GENERAL_EXPONENTIAL 2 d = corr_fun GAUSSIAN 2 d.
Proof. intros H. cbn [corr_fun]. f_equal. f_equal. change 2 with (INR 2) at 1. rewrite Rpow_nat by (auto; lia). ring. Qed.
