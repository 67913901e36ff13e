(** Sizes for which the computed exponents are too small. *)
From Coq Require Import ZArith List Bool Lia Reals Lra.
From Flocq Require Import Core.Raux Core.Generic_fmt.
From Verif Require Import Base Arith RealArith M_Variogram M_Padding M_FftSize M_Dsfmt M_Random M_Field M_Api
  S_Api S_CovGrid S_Sizes P_Base P_Api P_Field P_Field3 P_FftSize P_Sim P_Sim2 P_Overrun P_Padding P_Logs2.
Import ListNotations.
Open Scope Z_scope.

Lemma search_stuck oor m es c : x86_or_arm oor -> c < m -> m < 2 ^ 63 -> search oor m es c = Ok c.
Proof.
  intros Ho Hc Hm. revert c Hc. induction es as [|[[[i j] k] l] es IH]; intros c Hc; [reflexivity|]. cbn [search].
  assert (exists f, factor oor i j k l = Ok f) as [f Hf].
  { unfold factor. destruct (Z.ltb_spec (2 ^ i * 3 ^ j * 5 ^ k * 7 ^ l) (2 ^ 64)); eauto. destruct (Ho _ H) as [-> | ->]; eauto. }
  rewrite Hf. cbn [bind].
  destruct ((m <=? f) && (f <? c)) eqn:E; [|auto]. apply andb_true_iff in E as [E1 E2]. apply Z.leb_le in E1. apply Z.ltb_lt in E2. lia.
Qed.

Lemma size_stuck clogf oor m even a : x86_or_arm oor -> 1 <= m < 2 ^ 63 -> clogf 2 m = a -> 0 <= a <= 62 -> 2 ^ a < m ->
  FindNewSizeWithPadding clogf oor m even = Ok (2 ^ a).
Proof.
  intros Ho Hm Ha Hb Hlt. unfold FindNewSizeWithPadding, maxant. destruct (Z.eqb_spec m 0); [lia|]. cbn [bind]. rewrite Ha.
  unfold factor at 1. rewrite !Z.pow_0_r, !Z.mul_1_r. replace (2 ^ a <? 2 ^ 64) with true.
  2:{ symmetry. apply Z.ltb_lt. lia. }
  cbn [bind]. apply search_stuck; auto. lia.
Qed.

(** ceil((double)logf((float)m)/logf(p)) with correctly rounded single precision logarithms and a correctly rounded division *)
Definition single_logs (p m : Z) : Z := Zceil (rnd64 (rnd32 (ln (IZR (f32 m))) / rnd32 (ln (IZR p)))).

Lemma single_4194305 : single_logs 2 4194305 = 22.
Proof.
  unfold single_logs. change (f32 4194305) with 4194305. rewrite log2_f32, log4194305_f32.
  replace (15989985 * / 1048576 / (11629080 * / 16777216))%R with 22%R by lra.
  rewrite rnd64_int by lia. apply Zceil_IZR.
Qed.

Section M.
Variable o : Z -> outcome Z.
Variable cl : Z -> Z -> Z.
Definition g_vario : variogram (Rlib o cl) := @new_variogram Rarith EXPONENTIAL 0%R 1%R 1%R 1%R 0%R 0%R 1%R.
Definition g_dims n : dims (Rlib o cl) := @mkDims (Rlib o cl) n 1%R None None None None.
Definition g_pad p : adv (Rlib o cl) := @mkAdv (Rlib o cl) (Some p) None None None None None.

Lemma g_size rec fuel n t st : 0 <= n <= 2 ^ 31 -> exists N, fst (step rec fuel t (CSize g_vario (g_dims n)) st) = Ok (VSizes [N]).
Proof.
  intros Hn. cbn [step fst]. 
  assert (A : args (g_dims n) = Ok (n, d_dx (g_dims n), 1, lit (Rlib o cl) (-1) 0, 1, lit (Rlib o cl) (-1) 0)).
  { destruct (args_ok (g_dims n)) as [H _]. destruct H as [x Hx].
    - unfold dims_ok, given, size_ok; cbn. repeat split; try discriminate; lia.
    - rewrite Hx. apply args_inv in Hx as [-> _]. reflexivity. }
  rewrite A. cbn [bind]. unfold FindGridSizeAfterPadding, FindNDimPadding. change (1 <=? 1) with true. cbv iota.
  destruct (FGP_total g_vario n (range_x g_vario) 1%R) as [p Hp]; auto; try (cbn; lra).
  change (d_dx (g_dims n)) with 1%R.
  match goal with |- context [FindGaussianFieldPadding ?a ?b ?c ?d] => change (FindGaussianFieldPadding a b c d) with (FindGaussianFieldPadding (A:=Rarith) g_vario n (range_x g_vario) 1%R) end.
  rewrite Hp. cbn [bind omap]. eauto.
Qed.
Lemma g_accepted n p : 0 <= n <= 2 ^ 31 -> int_ok p -> accepted (CAdvanced g_vario (g_dims n) (g_pad p)).
Proof.
  intros Hn Hp. unfold accepted, dims_ok, given, size_ok, int_ok in *. cbn.
  repeat split; try discriminate; try (injection H as <-); lia.
Qed.
End M.

(** a platform with single precision logarithms; variogram('exponential', 1.0); n, 1.0; padx=0 *)
Definition MLib : Lib := Rlib (fun _ => Ok 0) single_logs.
Definition m_vario : variogram MLib := g_vario _ _.
Definition m_dims n : dims MLib := g_dims _ _ n.
Definition m_nopad : adv MLib := g_pad _ _ 0.

Lemma large_overrun rec fuel t st :
  let r := fst (step rec fuel t (CAdvanced m_vario (m_dims 4194305) m_nopad) st) in r = NoFuel \/ r = UB OutOfBounds.
Proof.
  cbv zeta. destruct (g_size (fun _ => Ok 0) single_logs rec fuel 4194305 t st) as [N HN]; [lia|].
  apply overrun_1d with (ns := [N]) (z := 2 ^ 22); auto; try (cbn; lia).
  - apply Rlib_sizes.
  - apply g_accepted; [lia|unfold int_ok; lia].
  - intros i Hi. change (dim_asked (m_dims 4194305)) with 1%nat in Hi. destruct i; [|lia]. cbn. lia.
  - apply size_stuck; try (cbn; lia); [intros x _; auto|exact single_4194305].
Qed.
