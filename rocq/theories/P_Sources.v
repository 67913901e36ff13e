(** collect_sources finds the files that are needed. *)
From Coq Require Import Permutation Lia Bool String List.
From Verif Require Import M_Sources S_Sources.
Import ListNotations.

Lemma path_eqb_iff p q : path_eqb p q = true <-> p = q.
Proof.
  unfold path_eqb. rewrite andb_true_iff, !String.eqb_eq. destruct p, q; cbn. split; [intros [-> ->]; reflexivity|].
  intros H. assert (base = base0) by congruence. assert (ext = ext0) by congruence. auto.
Qed.
Lemma prefix_iff i : forall s, prefix i s = true <-> exists r, s = (i ++ r)%string.
Proof.
  induction i as [|c i IH]; intros s.
  - destruct s; cbn; split; eauto.
  - destruct s as [|c' s]; cbn [prefix append]; [split; [discriminate|intros [r H]; discriminate]|].
    destruct (Ascii.ascii_dec c c') as [->|N].
    + rewrite IH. split; intros [r H]; exists r; congruence.
    + split; [discriminate|]. intros [r H]. congruence.
Qed.

Section Proofs.
Variable canon : path -> option string.
Variable is_file : path -> bool.
Variable names : string -> list string.
Variable beside : string -> string -> path.
Variable as_is in_src : string -> path.
Variable system : string -> bool.
Variable ignore : list string.
Notation add := (add_if_necessary is_file ignore).
Notation look := (lookup is_file beside as_is in_src).
Notation insp := (inspect is_file names beside as_is in_src ignore).
Notation trn := (turn canon is_file names beside as_is in_src system ignore).
Notation lp := (loop canon is_file names beside as_is in_src system ignore).
Notation means_ := (means is_file beside as_is in_src).
Notation incl_ := (includes is_file names beside as_is in_src ignore).
Notation proj_ := (is_project canon system).
Notation src_of := (source_of is_file).
Notation part := (partner is_file).

Lemma look_means f n p : look f n = Some p <-> means_ f n p.
Proof.
  unfold lookup, means. destruct (is_file (beside f n)) eqn:E1.
  - split; [intros H; assert (beside f n = p) by congruence; subst; auto|]. intros [_ [->|[H _]]]; [reflexivity|congruence].
  - destruct (is_file (as_is n)) eqn:E2.
    + split; [intros H; assert (as_is n = p) by congruence; subst; auto 10|]. intros [K [K1|[_ [K1|[K2 _]]]]]; congruence.
    + destruct (is_file (in_src n)) eqn:E3.
      * split; [intros H; assert (in_src n = p) by congruence; subst; auto 10|]. intros [K [K1|[_ [K1|[_ K1]]]]]; congruence.
      * split; [discriminate|]. intros [K [K1|[_ [K1|[_ K1]]]]]; congruence.
Qed.
Lemma ignored_iff p : ignored ignore p = true <-> skipped ignore p.
Proof.
  unfold ignored, skipped. rewrite existsb_exists. split.
  - intros (i & I & H). apply prefix_iff in H. destruct H as [r H]. eauto.
  - intros (i & r & I & H). exists i. split; [exact I|]. apply prefix_iff. eauto.
Qed.

(** the companions are the partners *)
Lemma companions_iff p q : In q (companions p) /\ is_file q = true <-> part p q.
Proof.
  unfold companions, partner. destruct p as [b e], q as [b' e']. cbn [base ext].
  assert (R : forall x y : string, (mkPath b x = mkPath b' y) <-> b' = b /\ y = x).
  { intros x y. split; [intros H; split; congruence|intros [-> ->]; reflexivity]. }
  assert (Q : forall x x' y y' : string, ((x, y) = (x', y')) <-> x = x' /\ y = y').
  { intros. split; [intros H; split; congruence|intros [-> ->]; reflexivity]. }
  destruct (String.eqb_spec e ".hpp") as [->|N1]; [|destruct (String.eqb_spec e ".h") as [->|N2]; [|destruct (String.eqb_spec e ".cpp") as [->|N3]; [|destruct (String.eqb_spec e ".c") as [->|N4]]]];
    cbn [In]; rewrite ?R, ?Q; intuition (try congruence).
Qed.

Lemma push_in cs : forall w x, In x (fold_left (fun w c => if is_file c then c :: w else w) cs w) <-> In x w \/ In x cs /\ is_file x = true.
Proof.
  induction cs as [|c cs IH]; intros w x; cbn [fold_left].
  - cbn. tauto.
  - rewrite IH. cbn [In]. destruct (is_file c) eqn:E; cbn [In]; intuition (subst; auto; congruence).
Qed.
Lemma add_in w p x : In x (add w p) <-> In x w \/ ~ skipped ignore p /\ ~ In p w /\ (x = p \/ part p x).
Proof.
  unfold add_if_necessary. destruct (ignored ignore p) eqn:E.
  - apply ignored_iff in E. tauto.
  - assert (S : ~ skipped ignore p) by (rewrite <- ignored_iff; congruence).
    destruct (existsb (path_eqb p) w) eqn:X.
    + apply existsb_exists in X. destruct X as (q & Q & H). apply path_eqb_iff in H. subst q. tauto.
    + assert (N : ~ In p w).
      { intros H. assert (existsb (path_eqb p) w = true); [|congruence]. apply existsb_exists. exists p. split; [exact H|]. apply path_eqb_iff. reflexivity. }
      rewrite push_in. rewrite <- companions_iff. cbn [In]. intuition.
Qed.

(** ** what is found *)
Section Complete.
Variable starts : list path.
Definition cov (F : list string) (w : list path) (f : string) : Prop := In f F \/ exists p, In p w /\ canon p = Some f.
Definition src' (p q : path) : Prop := src_of p q /\ ~ In p starts.
Definition J3 (F : list string) (w : list path) : Prop := forall p q f, In p w -> src' p q -> proj_ q f -> cov F w f.
Definition done1 (F : list string) (w : list path) (p : path) : Prop :=
  (forall f, proj_ p f -> cov F w f) /\ (forall q f, src' p q -> proj_ q f -> cov F w f).

Lemma cov_mono F w w' f : (forall x, In x w -> In x w') -> cov F w f -> cov F w' f.
Proof. intros H [A|(p & A & B)]; [left; exact A|right; eauto]. Qed.
Lemma done_mono F w w' p : (forall x, In x w -> In x w') -> done1 F w p -> done1 F w' p.
Proof. intros H [A B]. split; [intros f Hf|intros q f S Hf]; eapply cov_mono; eauto. Qed.

Lemma part_back p x q : part p x -> is_file p = true -> src_of x q -> q = p.
Proof.
  unfold partner, source_of. destruct p as [b e], x as [b' e'], q as [b'' e'']. cbn [base ext In].
  intros (-> & F1 & H) Fp (-> & F2 & G).
  destruct H as [H|[H|[H|[H|[H|[]]]]]]; assert (X : e = fst (e, e')) by reflexivity; assert (Y : e' = snd (e, e')) by reflexivity;
    rewrite <- H in X, Y; cbn [fst snd] in X, Y; subst e e';
    destruct G as [[G|[G|[]]]|[G N]]; try discriminate; assert (Z : e'' = snd (A := string) (".hpp"%string, e'')) by reflexivity; try congruence.
Qed.
Lemma add_done F w p : is_file p = true -> J3 F w -> J3 F (add w p) /\ (~ skipped ignore p -> done1 F (add w p) p).
Proof.
  intros Fp J.
  assert (M : forall x, In x w -> In x (add w p)) by (intros x H; apply add_in; auto).
  assert (D : ~ skipped ignore p -> done1 F (add w p) p).
  { intros S. assert (In_p : In p (add w p)).
    { apply add_in. assert (D : {In p w} + {~ In p w}).
      { apply in_dec. intros x y. destruct (path_eqb x y) eqn:E; [left; apply path_eqb_iff; exact E|right; intros H; apply path_eqb_iff in H; congruence]. }
      destruct D; auto. }
    split.
    - intros f [H _]. right. eauto.
    - intros q f Hs Hf.
      assert (D : {In p w} + {~ In p w}).
      { apply in_dec. intros x y. destruct (path_eqb x y) eqn:E; [left; apply path_eqb_iff; exact E|right; intros H; apply path_eqb_iff in H; congruence]. }
      destruct D as [I|N].
      + apply (cov_mono F w); [exact M|]. exact (J p q f I Hs Hf).
      + right. exists q. split; [|apply Hf]. apply add_in. right. split; [exact S|]. split; [exact N|]. right.
        destruct Hs as [(B & Fq & H) _]. split; [exact B|]. split; [exact Fq|].
        cbn [In] in H |- *. intuition. }
  split; [|exact D].
  intros x q f I Hs Hf. apply add_in in I. destruct I as [I|(S & N & I)].
  - apply (cov_mono F w); [exact M|]. exact (J x q f I Hs Hf).
  - destruct I as [->|I].
    + exact (proj2 (D S) q f Hs Hf).
    + rewrite (part_back p x q I Fp (proj1 Hs)) in Hf. exact (proj1 (D S) f Hf).
Qed.
Lemma inspect_done F f : forall ns w, J3 F w ->
  let w' := fold_left (fun w n => match look f n with Some p => add w p | None => w end) ns w in
  J3 F w' /\ (forall x, In x w -> In x w') /\ (forall n p, In n ns -> look f n = Some p -> ~ skipped ignore p -> done1 F w' p).
Proof.
  induction ns as [|n ns IH]; intros w J; cbn [fold_left]; cbv zeta.
  - split; [exact J|]. split; [auto|]. intros n p [].
  - set (w1 := match look f n with Some p => add w p | None => w end).
    assert (S1 : J3 F w1 /\ (forall x, In x w -> In x w1) /\ (forall p, look f n = Some p -> ~ skipped ignore p -> done1 F w1 p)).
    { unfold w1. destruct (look f n) as [p|] eqn:E.
      - assert (Fp : is_file p = true) by (apply look_means in E; apply E).
        destruct (add_done F w p Fp J) as [A B]. split; [exact A|]. split; [intros x H; apply add_in; auto|].
        intros p' H. assert (p = p') by congruence. subst p'. exact B.
      - split; [exact J|]. split; [auto|]. intros p H. discriminate. }
    destruct S1 as (A & B & C). destruct (IH w1 A) as (A' & B' & C'). split; [exact A'|]. split; [auto|].
    intros n' p [<-|I] L S; [|exact (C' n' p I L S)]. apply (done_mono F w1); [exact B'|]. exact (C p L S).
Qed.

Definition Inv (w : list path) (F : list string) : Prop :=
  (forall p f, In p starts -> proj_ p f -> cov F w f) /\ (forall g p, In g F -> incl_ g p -> done1 F w p) /\ J3 F w.

Lemma drop_cov F p w f : (forall g, canon p = Some g -> system g = false -> In g F) -> system f = false -> cov F (p :: w) f -> cov F w f.
Proof. intros D Sf [A|(q & [<-|I] & Q)]; [left; exact A|left; exact (D f Q Sf)|right; eauto]. Qed.
Lemma drop_inv F p w : (forall g, canon p = Some g -> system g = false -> In g F) -> Inv (p :: w) F -> Inv w F.
Proof.
  intros D (A & B & C). split; [|split].
  - intros q f I P. apply (drop_cov F p); [exact D|apply P|exact (A q f I P)].
  - intros g q I P. destruct (B g q I P) as [B1 B2].
    split; [intros f H|intros r f S H]; (apply (drop_cov F p); [exact D|apply H|eauto]).
  - intros q r f I S P. apply (drop_cov F p); [exact D|apply P|]. exact (C q r f (or_intror I) S P).
Qed.
Lemma grow_inv F F' w : (forall x, In x F -> In x F') -> Inv w F -> (forall g p, In g F' -> ~ In g F -> incl_ g p -> done1 F' w p) -> Inv w F'.
Proof.
  intros G (A & B & C) N.
  assert (M : forall f, cov F w f -> cov F' w f) by (intros f [H|H]; [left; auto|right; exact H]).
  split; [|split].
  - intros p f I P. apply M. eauto.
  - intros g p I P. assert (D : {In g F} + {~ In g F}) by (apply in_dec, string_dec). destruct D as [D|D]; [|exact (N g p I D P)].
    destruct (B g p D P) as [B1 B2]. split; [intros f H; apply M; auto|intros q f S H; apply M; eauto].
  - intros p q f I S P. apply M. eauto.
Qed.
Lemma turn_inv p w F : Inv (p :: w) F -> let '(w', F') := trn p w F in Inv w' F'.
Proof.
  intros I. unfold turn. destruct (canon p) as [f|] eqn:E.
  - destruct (system f) eqn:Sy.
    { apply (drop_inv F p); [|exact I]. intros g H. congruence. }
    destruct (existsb (String.eqb f) F) eqn:X.
    { apply existsb_exists in X. destruct X as (g & Hg & Eg). apply String.eqb_eq in Eg. subst g.
      apply (drop_inv F p); [|exact I]. intros g H _. assert (f = g) by congruence. subst g. exact Hg. }
    set (F' := (F ++ [f])%list).
    assert (G : forall x, In x F -> In x F') by (intros x H; apply in_or_app; auto).
    assert (In_f : In f F') by (apply in_or_app; right; left; reflexivity).
    assert (M : forall y h, cov F y h -> cov F' y h) by (intros y h [H|H]; [left; auto|right; exact H]).
    assert (dec : forall g, canon p = Some g -> system g = false -> In g F').
    { intros g H _. assert (f = g) by congruence. subst g. exact In_f. }
    destruct I as (A & B & C).
    assert (J : J3 F' w).
    { intros q r h Iq S P. apply (drop_cov F' p); [exact dec|apply P|]. apply M. exact (C q r h (or_intror Iq) S P). }
    destruct (inspect_done F' f (names f) w J) as (J' & MM & D).
    fold (insp f w) in J', MM, D.
    split; [|split; [|exact J']].
    + intros q h Iq P. apply (cov_mono F' w); [exact MM|]. apply (drop_cov F' p); [exact dec|apply P|]. apply M. eauto.
    + intros g q Ig P. apply in_app_or in Ig. destruct Ig as [Ig|[<-|[]]].
      * apply (done_mono F' w); [exact MM|]. destruct (B g q Ig P) as [B1 B2].
        split; [intros h H|intros r h S H]; (apply (drop_cov F' p); [exact dec|apply H|apply M; eauto]).
      * destruct P as [(n & In_n & Me) Sk]. apply (D n q In_n); [apply look_means; exact Me|exact Sk].
  - apply (drop_inv F p); [|exact I]. intros g H. congruence.
Qed.
Lemma loop_inv fuel : forall w F r, Inv w F -> lp fuel w F = Some r -> Inv [] r.
Proof.
  induction fuel as [|fuel IH]; intros [|p w] F r I H; cbn [loop] in H; try discriminate; try (assert (F = r) by congruence; subst; exact I).
  pose proof (turn_inv p w F I) as T. destruct (trn p w F) as [w' F']. exact (IH w' F' r T H).
Qed.
Lemma start_inv : Inv (rev starts) [].
Proof.
  split; [|split].
  - intros p f I [P _]. right. exists p. split; [apply in_rev in I; exact I|exact P].
  - intros g p [].
  - intros p q f I [_ N]. apply in_rev in I. contradiction.
Qed.
Lemma complete fuel r : collect_sources canon is_file names beside as_is in_src system ignore fuel starts = Some r ->
  forall f, needed canon is_file names beside as_is in_src system ignore src' starts f -> In f r.
Proof.
  intros H. pose proof (loop_inv fuel _ _ _ start_inv H) as (A & B & C).
  assert (E : forall f, cov r [] f -> In f r) by (intros f [X|(p & [] & _)]; exact X).
  induction 1 as [p f I P|g p f _ I Ic P|g p q f _ I Ic S P]; apply E.
  - exact (A p f I P).
  - exact (proj1 (B g p I Ic) f P).
  - exact (proj2 (B g p I Ic) q f S P).
Qed.
End Complete.

(** ** nothing else is found *)
Section Sound.
Variable starts : list path.
Notation need := (needed canon is_file names beside as_is in_src system ignore part starts).
Definition Good (w : list path) (F : list string) : Prop :=
  (forall f, In f F -> need f) /\ (forall p f, In p w -> proj_ p f -> need f) /\ NoDup F /\
  (forall f, In f F -> exists p, canon p = Some f).
Lemma inspect_good f : need f -> forall ns w, (forall n, In n ns -> In n (names f)) -> (forall p h, In p w -> proj_ p h -> need h) ->
  forall p h, In p (fold_left (fun w n => match look f n with Some p => add w p | None => w end) ns w) -> proj_ p h -> need h.
Proof.
  intros Nf. induction ns as [|n ns IH]; intros w Hn Hw; cbn [fold_left]; [exact Hw|].
  apply IH; [intros; apply Hn; right; assumption|].
  destruct (look f n) as [q|] eqn:L; [|exact Hw]. intros p h I P. apply add_in in I. destruct I as [I|(S & _ & I)]; [eauto|].
  assert (Ic : incl_ f q) by (split; [exists n; split; [apply Hn; left; reflexivity|apply look_means; exact L]|exact S]).
  destruct I as [->|I].
  - exact (needed_include _ _ _ _ _ _ _ _ _ _ _ _ _ Nf Ic P).
  - exact (needed_other _ _ _ _ _ _ _ _ _ _ _ _ _ _ Nf Ic I P).
Qed.
Lemma turn_good p w F : Good (p :: w) F -> let '(w', F') := trn p w F in Good w' F'.
Proof.
  intros (A & B & C & E). unfold turn.
  assert (Keep : Good w F) by (split; [exact A|split; [intros q f I; apply B; right; exact I|split; [exact C|exact E]]]).
  destruct (canon p) as [f|] eqn:Ca; [|exact Keep]. destruct (system f) eqn:Sy; [exact Keep|].
  destruct (existsb (String.eqb f) F) eqn:X; [exact Keep|].
  assert (Nf : need f) by (apply (B p f); [left; reflexivity|split; assumption]).
  split; [|split; [|split]].
  - intros g I. apply in_app_or in I. destruct I as [I|[<-|[]]]; auto.
  - exact (inspect_good f Nf (names f) w (fun n H => H) (proj1 (proj2 Keep))).
  - assert (N : ~ In f F).
    { intros H. assert (existsb (String.eqb f) F = true); [|congruence]. apply existsb_exists. exists f. split; [exact H|apply String.eqb_refl]. }
    apply (Permutation_NoDup (l := f :: F)); [apply Permutation_cons_append|]. constructor; assumption.
  - intros g I. apply in_app_or in I. destruct I as [I|[<-|[]]]; eauto.
Qed.
Lemma sound fuel r : collect_sources canon is_file names beside as_is in_src system ignore fuel starts = Some r ->
  NoDup r /\ forall f, In f r -> need f /\ system f = false.
Proof.
  assert (G : forall fuel w F r, Good w F -> (forall f, In f F -> system f = false) -> lp fuel w F = Some r -> Good [] r /\ (forall f, In f r -> system f = false)).
  { clear fuel r. induction fuel as [|fuel IH]; intros [|p w] F r I Y H; cbn [loop] in H; try discriminate; try (assert (F = r) by congruence; subst; split; [exact I|exact Y]).
    pose proof (turn_good p w F I) as T. destruct (trn p w F) as [w' F'] eqn:E. apply (IH w' F' r T); [|exact H].
    intros f I'. unfold turn in E. destruct (canon p) as [g|]; [|assert (F = F') by congruence; subst; auto].
    destruct (system g) eqn:Sy; [assert (F = F') by congruence; subst; auto|].
    destruct (existsb (String.eqb g) F); [assert (F = F') by congruence; subst; auto|].
    assert (E' : (F ++ [g])%list = F') by congruence. rewrite <- E' in I'. apply in_app_or in I'. destruct I' as [I'|[<-|[]]]; auto. }
  intros H. destruct (G fuel (rev starts) [] r) as ((A & _ & C & _) & Y).
  - split; [intros f []|split; [|split; [constructor|intros f []]]]. intros p f I P. apply in_rev in I. exact (needed_start _ _ _ _ _ _ _ _ _ _ p f I P).
  - intros f [].
  - exact H.
  - split; [exact C|]. auto.
Qed.
End Sound.

(** ** it ends *)
Section Ends.
Variable all : list string.
Hypothesis Hall : forall p f, canon p = Some f -> system f = false -> In f all.
Definition missing (F : list string) : nat := List.length (filter (fun f => negb (existsb (String.eqb f) F)) all).
Lemma filter_le (A : Type) (a b : A -> bool) l : (forall x, b x = true -> a x = true) -> (List.length (filter b l) <= List.length (filter a l))%nat.
Proof. intros H. induction l as [|x l IH]; cbn; [lia|]. destruct (b x) eqn:E; [rewrite (H x E); cbn; lia|]. destruct (a x); cbn; lia. Qed.
Lemma filter_lt (A : Type) (a b : A -> bool) l y : (forall x, b x = true -> a x = true) -> In y l -> a y = true -> b y = false ->
  (List.length (filter b l) < List.length (filter a l))%nat.
Proof.
  intros H. induction l as [|x l IH]; intros I Ya Yb; [destruct I|]. cbn. destruct I as [->|I].
  - rewrite Ya, Yb. cbn. pose proof (filter_le A a b l H). lia.
  - specialize (IH I Ya Yb). destruct (b x) eqn:E; [rewrite (H x E); cbn; lia|]. destruct (a x); cbn; lia.
Qed.
Lemma missing_lt F f : In f all -> existsb (String.eqb f) F = false -> (missing (F ++ [f]) < missing F)%nat.
Proof.
  intros I E. unfold missing. apply filter_lt with f; [|exact I|rewrite E; reflexivity|].
  - intros x H. apply negb_true_iff in H. apply negb_true_iff. rewrite existsb_app in H. apply orb_false_iff in H. apply H.
  - apply negb_false_iff. rewrite existsb_app. cbn. rewrite String.eqb_refl. apply orb_true_iff. right. reflexivity.
Qed.
Lemma ends m : forall F, (missing F <= m)%nat -> forall w, exists fuel r, lp fuel w F = Some r.
Proof.
  induction m as [|m IHm]; intros F M w; (induction w as [|p w IHw]; [exists 0%nat, F; reflexivity|]);
    assert (Step : exists fuel r, (let '(w', F') := trn p w F in lp fuel w' F') = Some r).
  1, 3: unfold turn; destruct (canon p) as [f|] eqn:Ca; [|exact IHw]; destruct (system f) eqn:Sy; [exact IHw|];
        destruct (existsb (String.eqb f) F) eqn:X; [exact IHw|];
        pose proof (missing_lt F f (Hall p f Ca Sy) X) as L.
  - lia.
  - apply IHm. lia.
  - destruct Step as (fuel & r & H). exists (S fuel), r. exact H.
  - destruct Step as (fuel & r & H). exists (S fuel), r. exact H.
Qed.
End Ends.
End Proofs.
