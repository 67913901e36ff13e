(** FindNewSizeWithPadding (C19, C23). *)
From Coq Require Import ZArith List Bool Lia.
From Verif Require Import Base M_FftSize S_Sizes P_Base.
Import ListNotations.
Open Scope Z_scope.

Lemma clog_from_spec fuel p m : 2 <= p -> forall a,
  0 <= a -> (forall b, 0 <= b < a -> p ^ b < m) -> m <= 2 ^ (a + Z.of_nat fuel) ->
  let c := clog_from fuel p m a (p ^ a) in
  a <= c /\ m <= p ^ c /\ (forall b, 0 <= b < c -> p ^ b < m).
Proof.
  intros Hp. induction fuel as [|fuel IH]; intros a Ha Hb Hm; simpl.
  - split; [lia|]. split; auto. rewrite Z.add_0_r in Hm.
    pose proof (Z.pow_le_mono_l 2 p a). lia.
  - destruct (Z.leb_spec m (p ^ a)) as [H|H]; [split; [lia|split; auto]|].
    replace (p ^ a * p) with (p ^ (a + 1)) by (rewrite Z.pow_add_r, Z.pow_1_r by lia; reflexivity).
    destruct (IH (a + 1)) as (H1 & H2 & H3).
    + lia.
    + intros b Hb'. destruct (Z.eq_dec b a) as [->|]; auto. apply Hb. lia.
    + replace (a + 1 + Z.of_nat fuel) with (a + Z.of_nat (S fuel)) by lia. auto.
    + split; [lia|]. split; auto.
Qed.

Lemma clog_spec p m : 2 <= p -> m <= 2 ^ 64 ->
  0 <= clog p m /\ m <= p ^ clog p m /\ (forall b, 0 <= b < clog p m -> p ^ b < m).
Proof.
  intros Hp Hm. unfold clog. apply (clog_from_spec 65 p m Hp 0); try lia.
Qed.

Lemma f32_exact m : m < 2 ^ 24 -> f32 m = m.
Proof. intros. unfold f32. destruct (Z.ltb_spec m (2 ^ 24)); auto; lia. Qed.

(** exact logarithms are good *)
Lemma exact_logs_good m : m <= 2 ^ 64 -> good_logs clog m.
Proof.
  intros Hm p Hp. exists (clog p m).
  assert (2 <= p) by (simpl in Hp; intuition lia).
  destruct (clog_spec p m) as (? & ? & ?); auto.
Qed.

Definition prod4 (e : Z * Z * Z * Z) : Z := let '(i, j, k, l) := e in 2 ^ i * 3 ^ j * 5 ^ k * 7 ^ l.

Lemma search_spec oor m (es : list (Z * Z * Z * Z)) : x86_or_arm oor -> 1 <= m -> forall c, m <= c < 2 ^ 64 ->
  exists r, search oor m es c = Ok r /\ m <= r <= c /\
    (r = c \/ exists e, In e es /\ r = prod4 e) /\
    (forall e, In e es -> m <= prod4 e -> r <= prod4 e).
Proof.
  intros Ho Hm. induction es as [|[[[i j] k] l] es IH]; intros c Hc.
  - simpl. exists c. repeat split; try lia; auto.
  - cbn [search]. unfold factor.
    set (x := 2 ^ i * 3 ^ j * 5 ^ k * 7 ^ l). change x with (prod4 (i, j, k, l)) in *. clearbody x.
    destruct (Z.ltb_spec (prod4 (i, j, k, l)) (2 ^ 64)) as [Hx|Hx].
    + cbn [bind]. set (f := prod4 (i, j, k, l)) in *.
      set (c' := if (m <=? f) && (f <? c) then f else c).
      assert (Hc' : m <= c' <= c /\ (c' = c \/ c' = f) /\ (m <= f -> c' <= f)).
      { unfold c'. destruct (Z.leb_spec m f), (Z.ltb_spec f c); simpl; repeat split; auto; lia. }
      destruct (IH c') as (r & Hr & Hr1 & Hr2 & Hr3); [lia|].
      exists r. repeat split; auto; try lia.
      * destruct Hr2 as [->|(e & He & ->)]; [|right; exists e; simpl; auto].
        destruct (proj1 (proj2 Hc')) as [->| ->]; [auto|right; exists (i, j, k, l); simpl; auto].
      * intros e [<-|He] Hme; auto. fold f in Hme |- *. lia.
    + assert (Hf : exists f, oor (prod4 (i, j, k, l)) = Ok f /\ (if (m <=? f) && (f <? c) then f else c) = c).
      { destruct (Ho (prod4 (i, j, k, l)) Hx) as [->| ->]; eexists; (split; [reflexivity|]).
        - destruct (Z.leb_spec m 0); simpl; auto; lia.
        - destruct (Z.ltb_spec (2 ^ 64 - 1) c); [lia|]. rewrite andb_false_r. reflexivity. }
      destruct Hf as (f & -> & Ef). cbn [bind]. rewrite Ef.
      destruct (IH c) as (r & Hr & Hr1 & Hr2 & Hr3); [lia|].
      exists r. repeat split; auto; try lia.
      * destruct Hr2 as [->|(e & He & ->)]; [auto|right; exists e; simpl; auto].
      * intros e [<-|He] Hme; auto. lia.
Qed.

Lemma In_irange a b x : 0 <= a -> (In x (irange a b) <-> a <= x <= b).
Proof.
  intros Ha. unfold irange. rewrite in_map_iff. split.
  - intros (n & <- & Hn). apply In_range in Hn. lia.
  - intros Hx. exists (Z.to_nat x). split; [lia|]. apply In_range. lia.
Qed.

Lemma In_exponents m2 a b c d i j k l : 0 <= m2 ->
  (In (i, j, k, l) (exponents m2 a b c d) <-> m2 <= i <= a /\ 0 <= j <= b /\ 0 <= k <= c /\ 0 <= l <= d).
Proof.
  intros Hm. unfold exponents. rewrite in_flat_map. split.
  - intros (i' & Hi & H). apply In_irange in Hi; auto.
    apply in_flat_map in H as (j' & Hj & H). apply In_irange in Hj; [|lia].
    apply in_flat_map in H as (k' & Hk & H). apply In_irange in Hk; [|lia].
    apply in_map_iff in H as (l' & E & Hl). apply In_irange in Hl; [|lia]. injection E as <- <- <- <-. auto.
  - intros (Hi & Hj & Hk & Hl). exists i. split; [apply In_irange; auto|].
    apply in_flat_map. exists j. split; [apply In_irange; lia|].
    apply in_flat_map. exists k. split; [apply In_irange; lia|].
    apply in_map_iff. exists l. split; auto. apply In_irange; lia.
Qed.

Lemma pow_ge1 p a : 1 <= p -> 0 <= a -> 1 <= p ^ a.
Proof. intros. pose proof (Z.pow_pos_nonneg p a). lia. Qed.

Lemma prod_mono x y z t x' y' z' t' : 0 <= x <= x' -> 0 <= y <= y' -> 0 <= z <= z' -> 0 <= t <= t' ->
  x * y * z * t <= x' * y' * z' * t'.
Proof.
  intros. assert (0 <= x * y <= x' * y') by nia. assert (0 <= x * y * z <= x' * y' * z') by nia. nia.
Qed.

Lemma pow_mono p a b : 1 <= p -> 0 <= a <= b -> 0 <= p ^ a <= p ^ b.
Proof. intros. split; [apply Z.pow_nonneg; lia|apply Z.pow_le_mono_r; lia]. Qed.

Theorem size_best clogf oor m even :
  x86_or_arm oor -> good_logs clogf m -> 1 <= m <= 2 ^ 52 -> (even = true -> 2 <= m) ->
  exists n, FindNewSizeWithPadding clogf oor m even = Ok n /\ best_size even m n /\ n < 2 * m.
Proof.
  intros Ho Hg Hm He. unfold FindNewSizeWithPadding, maxant.
  destruct (Z.eqb_spec m 0) as [|_]; [lia|]. cbn [bind].
  destruct (Hg 2) as (a2 & Ha2 & Hp2 & Hl2 & Hc2); [simpl; auto|].
  destruct (Hg 3) as (a3 & Ha3 & Hp3 & Hl3 & Hc3); [simpl; auto|].
  destruct (Hg 5) as (a5 & Ha5 & Hp5 & Hl5 & Hc5); [simpl; auto|].
  destruct (Hg 7) as (a7 & Ha7 & Hp7 & Hl7 & Hc7); [simpl; auto|].
  (* powers of p at the exact logarithm are below p*m *)
  assert (Hup : forall p a, 2 <= p -> 0 <= a -> (forall b, 0 <= b < a -> p ^ b < m) -> p ^ a <= p * m - p \/ a = 0).
  { intros p a Hp Ha Hb. destruct (Z.eq_dec a 0); auto. left.
    replace a with (Z.succ (a - 1)) by lia. rewrite Z.pow_succ_r by lia. specialize (Hb (a - 1)). nia. }
  set (m2 := if even then 1 else 0).
  set (M2 := clogf 2 m) in *. set (M3 := clogf 3 m) in *. set (M5 := clogf 5 m) in *. set (M7 := clogf 7 m) in *.
  assert (H2 : 2 ^ a2 < 2 * m) by (destruct (Hup 2 a2 ltac:(lia) Ha2 Hl2) as [?|E]; [lia|rewrite E; rewrite Z.pow_0_r; lia]).
  assert (HM : forall p a M, 2 <= p <= 7 -> 0 <= a -> (forall b, 0 <= b < a -> p ^ b < m) -> (M = a \/ M = a + 1) ->
             a <= M /\ p ^ a <= p ^ M <= p * (p * m)).
  { intros p a M Hp Ha Hb HM. assert (p ^ a <= p * m) by (destruct (Hup p a ltac:(lia) Ha Hb) as [?|E]; [lia|rewrite E; rewrite Z.pow_0_r; nia]).
    pose proof (pow_ge1 p a). 
    destruct HM as [->| ->]; [nia|]. split; [lia|]. replace (a + 1) with (Z.succ a) by lia. rewrite Z.pow_succ_r by lia. nia. }
  destruct (HM 2 a2 M2) as (HM2 & HM2'); auto; try lia.
  destruct (HM 3 a3 M3) as (HM3 & HM3'); auto; try lia.
  destruct (HM 5 a5 M5) as (HM5 & HM5'); auto; try lia.
  destruct (HM 7 a7 M7) as (HM7 & HM7'); auto; try lia. clear HM.
  assert (Ha2e : even = true -> 1 <= a2).
  { intros E. specialize (He E). destruct (Z.eq_dec a2 0) as [->|]; [simpl in Hp2|]; lia. }
  assert (Hm2 : 0 <= m2 <= 1) by (unfold m2; destruct even; lia).
  assert (Hm2a : m2 <= a2) by (unfold m2; destruct even; [auto|lia]).
  assert (Hm2p : 1 <= 2 ^ m2 <= 2) by (unfold m2; destruct even; simpl; lia).
  unfold factor at 1. replace (2 ^ M2 * 3 ^ 0 * 5 ^ 0 * 7 ^ 0) with (2 ^ M2) by (simpl; lia).
  destruct (Z.ltb_spec (2 ^ M2) (2 ^ 64)) as [_|Hbad]; [|exfalso; lia]. cbn [bind].
  destruct (search_spec oor m (exponents m2 M2 M3 M5 M7) Ho ltac:(lia) (2 ^ M2)) as (r & Hr & Hr1 & Hr2 & Hr3); [lia|].
  exists r. split; [exact Hr|].
  (* candidates of the form 2^m2 * q *)
  assert (Hcand : forall i j k l, m2 <= i <= M2 -> 0 <= j <= M3 -> 0 <= k <= M5 -> 0 <= l <= M7 ->
            m <= prod4 (i, j, k, l) -> r <= prod4 (i, j, k, l)).
  { intros. apply Hr3; auto. apply In_exponents; lia. }
  assert (Hr2' : r < 2 * m).
  { specialize (Hcand a2 0 0 0). unfold prod4 in Hcand. rewrite !Z.pow_0_r, !Z.mul_1_r in Hcand. lia. }
  split; [|auto]. split.
  - (* admissible *)
    split; [|split; [lia|]].
    + destruct Hr2 as [->|([[[i j] k] l] & Hin & ->)].
      * exists M2, 0, 0, 0. rewrite !Z.pow_0_r. lia.
      * apply In_exponents in Hin; [|lia]. exists i, j, k, l. unfold prod4. repeat split; lia.
    + intros E. destruct Hr2 as [->|([[[i j] k] l] & Hin & ->)].
      * exists (2 ^ (M2 - 1)). specialize (Ha2e E). replace M2 with (Z.succ (M2 - 1)) at 1 by lia. rewrite Z.pow_succ_r by lia. reflexivity.
      * apply In_exponents in Hin; [|lia]. unfold m2 in Hin. rewrite E in Hin.
        exists (2 ^ (i - 1) * 3 ^ j * 5 ^ k * 7 ^ l). unfold prod4.
        replace i with (Z.succ (i - 1)) at 1 by lia. rewrite Z.pow_succ_r by lia. ring.
  - (* least *)
    intros n' (Hs & Hmn & Hev). destruct Hs as (a & b & c & d & Ha & Hb & Hc & Hd & En).
    (* n' has at least m2 factors of two *)
    assert (Ham : m2 <= a).
    { unfold m2. destruct even; [|lia]. destruct (Hev eq_refl) as (h & Eh).
      destruct (Z.eq_dec a 0) as [->|]; [|lia]. exfalso.
      assert (Ho' : Z.odd n' = true).
      { rewrite En. rewrite !Z.odd_mul.
        assert (X : forall p e, Z.odd p = true -> 0 <= e -> Z.odd (p ^ e) = true).
        { intros p e Hpo He'. destruct (Z.eq_dec e 0) as [->|]; [reflexivity|rewrite Z.odd_pow by lia; auto]. }
        rewrite (X 3 b), (X 5 c), (X 7 d) by (auto; lia). reflexivity. }
      rewrite Eh, Z.odd_mul in Ho'. discriminate. }
    pose proof (pow_ge1 2 a). pose proof (pow_ge1 3 b). pose proof (pow_ge1 5 c). pose proof (pow_ge1 7 d).
    assert (Hmul : forall x y : Z, 1 <= x -> m <= y -> m <= x * y) by (clear - Hm; intros; nia).
    destruct (Z_lt_le_dec M2 a) as [G2|G2].
    { assert (2 ^ M2 <= 2 ^ a) by (apply Z.pow_le_mono_r; lia).
      pose proof (prod_mono (2 ^ M2) 1 1 1 (2 ^ a) (3 ^ b) (5 ^ c) (7 ^ d)). pose proof (pow_ge1 2 M2). lia. }
    destruct (Z_lt_le_dec M3 b) as [G3|G3].
    { specialize (Hcand m2 M3 0 0 ltac:(lia) ltac:(lia) ltac:(lia) ltac:(lia)). unfold prod4 in Hcand.
      rewrite !Z.pow_0_r, !Z.mul_1_r in Hcand. pose proof (pow_ge1 3 M3).
      specialize (Hcand ltac:(apply Hmul; lia)).
      pose proof (prod_mono (2 ^ m2) (3 ^ M3) 1 1 (2 ^ a) (3 ^ b) (5 ^ c) (7 ^ d)) as X.
      pose proof (pow_mono 2 m2 a). pose proof (pow_mono 3 M3 b). lia. }
    destruct (Z_lt_le_dec M5 c) as [G5|G5].
    { specialize (Hcand m2 0 M5 0 ltac:(lia) ltac:(lia) ltac:(lia) ltac:(lia)). unfold prod4 in Hcand.
      rewrite !Z.pow_0_r, !Z.mul_1_r in Hcand. pose proof (pow_ge1 5 M5).
      specialize (Hcand ltac:(apply Hmul; lia)).
      pose proof (prod_mono (2 ^ m2) 1 (5 ^ M5) 1 (2 ^ a) (3 ^ b) (5 ^ c) (7 ^ d)) as X.
      pose proof (pow_mono 2 m2 a). pose proof (pow_mono 5 M5 c). lia. }
    destruct (Z_lt_le_dec M7 d) as [G7|G7].
    { specialize (Hcand m2 0 0 M7 ltac:(lia) ltac:(lia) ltac:(lia) ltac:(lia)). unfold prod4 in Hcand.
      rewrite !Z.pow_0_r, !Z.mul_1_r in Hcand. pose proof (pow_ge1 7 M7).
      specialize (Hcand ltac:(apply Hmul; lia)).
      pose proof (prod_mono (2 ^ m2) 1 1 (7 ^ M7) (2 ^ a) (3 ^ b) (5 ^ c) (7 ^ d)) as X.
      pose proof (pow_mono 2 m2 a). pose proof (pow_mono 7 M7 d). lia. }
    specialize (Hcand a b c d). unfold prod4 in Hcand. rewrite En. apply Hcand; lia.
Qed.
