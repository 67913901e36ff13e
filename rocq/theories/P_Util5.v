(** The dummy simulation; reference points. *)
From Coq Require Import ZArith List Bool Reals Lia Lra Permutation.
From Flocq Require Import Core.Raux.
From Verif Require Import M_Util S_Util P_Base P_Util P_Util2 P_Util3 P_Util4.
Import ListNotations.
Open Scope R_scope.

Lemma flatten_length e g : length (flatten e g) = (ev_nx e * ev_ny e * ev_nz e)%nat.
Proof. unfold flatten. now rewrite map_length, seq_length. Qed.
Lemma flatten_grid e g p : in_grid e p -> as_grid e (flatten e g) p = g p.
Proof.
  destruct p as [[i j] k]. intros (Hi & Hj & Hk). unfold as_grid, flatten.
  rewrite (nth_map_seq (fun t => g (t mod ev_nx e, (t / ev_nx e) mod ev_ny e, t / ev_nx e / ev_ny e)%nat)).
  - replace (i + ev_nx e * (j + ev_ny e * k))%nat with (i + (j + k * ev_ny e) * ev_nx e)%nat by ring.
    rewrite Nat.mod_add, Nat.div_add, !(Nat.div_small i), Nat.add_0_l, Nat.mod_add, Nat.div_add, (Nat.div_small j), !Nat.mod_small by lia. reflexivity.
  - assert (j + ev_ny e * k < ev_ny e * ev_nz e)%nat by nia. nia.
Qed.

Lemma patched_simulated e n : in_grid e origin ->
  simulated (patched e) n tt = Some (repeat (flatten e (fun p => sqrt ((1 - ev_corr e (dist e origin p)) * 2))) n, tt).
Proof.
  intros Ho. induction n as [|n IH]; cbn [simulated repeat]; [reflexivity|].
  unfold patched at 1, dummy_sim. rewrite (proj2 (exists_cell e origin) Ho). rewrite IH. reflexivity.
Qed.

Lemma dummy_pair e p : ev_corr e 0 = 1 -> (forall x, 0 <= x -> ev_corr e x <= 1) ->
  pair_value (fun p => sqrt ((1 - ev_corr e (dist e origin p)) * 2)) origin p = ev_corr e (dist e origin p).
Proof.
  intros H0 H1. unfold pair_value. rewrite dist_self, H0. replace ((1 - 1) * 2) with 0 by ring. rewrite sqrt_0, Rminus_0_r.
  rewrite pow2_sqrt. - field. - specialize (H1 _ (dist_nonneg e origin p)). lra.
Qed.

(** the estimate from dummy data: the average correlation over the cells of the bin *)
Theorem dummy_estimate : forall e nmax resolution, proper e -> 0 < resolution -> (0 < nmax)%nat -> suits e resolution origin ->
  ev_corr e 0 = 1 -> (forall x, 0 <= x -> ev_corr e x <= 1) ->
  exists distances estimates samples, estimate_variogram (patched e) e nmax resolution [origin] tt = (Ret (distances, estimates, samples), tt) /\
  forall m n, farthest e origin m -> parts m resolution n -> length distances = n /\
  forall k cells, (k < n)%nat -> cells_in e origin m n k cells -> cells <> [] ->
    nth k distances 0 = m * INR (k + 1) / INR n /\
    nth k estimates None = Some (average (map (fun p => ev_corr e (distance e origin p)) cells)).
Proof.
  intros e nmax resolution Hpr Hr Hm Ho H0 H1. set (f := flatten e (fun p => sqrt ((1 - ev_corr e (dist e origin p)) * 2))).
  destruct (c59 unit (patched e) e nmax resolution [origin] tt f f (repeat f nmax) tt) as (ds & es & ns & E1 & E2); auto.
  { intros r [<-|[]]. exact Ho. }
  { apply (patched_simulated e (2 + nmax)). apply Ho. }
  { intros x Hx. assert (x = f) as ->; [|apply flatten_length]. destruct Hx as [<-|[<-|Hx]]; auto. now apply repeat_spec in Hx. }
  exists ds, es, ns. split; [exact E1|]. intros m n Hf Hp. destruct (E2 m n Hf Hp) as (L1 & _ & _ & E3). split; [exact L1|].
  intros k cells Hk Hc Hne. destruct (E3 k Hk) as (E4 & E5). split; [exact E4|].
  destruct (E5 (fun _ => m) (fun _ => n) (fun _ => cells)) as (_ & E6 & _).
  { intros r [<-|[]]. auto. }
  cbn [filter] in E6. destruct (Nat.ltb_spec k n); [|lia]. rewrite E6; [|discriminate|intros r [<-|[]]; auto]. f_equal.
  rewrite (average_ext _ (fun _ => average (map (fun p => ev_corr e (distance e origin p)) cells))).
  - apply average_const. destruct nmax; [lia|discriminate].
  - intros x Hx. apply repeat_spec in Hx. subst x. cbn [map]. unfold average at 1. cbn [fold_right length]. change (INR 1) with 1.
    rewrite Rplus_0_r. unfold Rdiv. rewrite Rinv_1, Rmult_1_r. apply average_ext. intros p Hpc.
    unfold pair_value. unfold f. rewrite !flatten_grid by (try apply Ho; apply Hc in Hpc; apply Hpc).
    apply (dummy_pair e p H0 H1).
Qed.

(** one row: reported one cell too far *)
Theorem dummy_row : forall nx dx corr nmax, (3 <= nx)%nat -> 0 < dx -> (0 < nmax)%nat -> corr 0 = 1 -> (forall x, 0 <= x -> corr x <= 1) ->
  exists distances estimates samples,
    estimate_variogram (patched (row nx dx corr)) (row nx dx corr) nmax dx [origin] tt = (Ret (distances, estimates, samples), tt) /\
    true_variogram (patched (row nx dx corr)) (row nx dx corr) dx tt = (Ret (distances, map corr distances), tt) /\
    forall k, (k < nx - 2)%nat -> nth k distances 0 = INR (k + 1) * dx /\ nth k estimates None = Some (corr (INR k * dx)).
Proof.
  intros nx dx corr nmax Hnx Hdx Hm H0 H1. set (e := row nx dx corr).
  assert (Hnx2 : (2 <= nx)%nat) by lia.
  pose proof (row_proper nx dx corr) as Hpr. pose proof (row_suits nx dx corr Hnx2 Hdx) as Ho. fold e in Hpr, Ho.
  destruct (dummy_estimate e nmax dx Hpr Hdx Hm Ho H0 H1) as (ds & es & ns & E1 & E2).
  exists ds, es, ns. split; [exact E1|].
  destruct (suits_bins e dx origin Hdx Ho) as [Ho1 Ho2].
  destruct (E2 _ _ (row_far nx dx corr Hnx2 Hdx) (row_parts nx dx Hnx2 Hdx)) as (L & E3). split.
  - unfold true_variogram, mbind.
    rewrite (midpoints_ok e dx Hdx Hpr (patched e) tt (flatten e (fun p => sqrt ((1 - ev_corr e (dist e origin p)) * 2))) tt); auto using flatten_length.
    + assert (M : ds = map (fun k => far e origin * INR (k + 1) / INR (nbins e dx origin)) (seq 0 (nbins e dx origin))).
      { pose proof (patched_simulated e (2 + nmax) Ho1) as P. set (f := flatten e _) in P.
        rewrite (estimate_ok e dx Hdx Hpr (patched e) nmax [origin] tt f f (repeat f nmax) tt Ho1 Ho2) in E1; auto.
        - cbv zeta in E1. injection E1 as E1 _ _. now symmetry.
        - apply Forall_forall. intros x Hx. assert (x = f) as ->; [|apply flatten_length].
          destruct Hx as [<-|[<-|Hx]]; auto. now apply repeat_spec in Hx. }
      rewrite <- M. reflexivity.
    + unfold patched, dummy_sim. rewrite (proj2 (exists_cell e origin) Ho1). reflexivity.
  - intros k Hk. destruct (E3 k [(k, 0, 0)%nat] ltac:(lia) (row_cells nx dx corr Hnx2 Hdx k Hk) ltac:(discriminate)) as [E4 E5]. split.
    + rewrite E4. assert (P : 0 < INR (nx - 1)) by (apply lt_0_INR; lia). field. lra.
    + rewrite E5. cbn [map]. unfold average. cbn [fold_right length]. change (INR 1) with 1.
      change (distance e origin (k, 0, 0)%nat) with (dist e origin (k, 0, 0)%nat). unfold e. rewrite (row_dist nx dx corr Hdx).
      change (ev_corr (row nx dx corr)) with corr. f_equal. field.
Qed.
