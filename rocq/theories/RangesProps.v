From Verif Require Import RBase Ranges.
Local Open Scope R_scope.

(** ranges a user can make *)
Inductive made : range -> Prop :=
| made_of lo hi : made (range_of lo hi)
| made_fixed x : made (fixed_point x)
| made_unbounded : made unbounded_range.

Lemma bounded_of lo hi : is_unbounded (range_of lo hi) = false.
Proof.
  unfold is_unbounded. pose proof eps_small as He.
  assert (Ho : lower (range_of lo hi) <= upper (range_of lo hi)).
  { unfold range_of. destruct (Rltb_spec hi lo); simpl; lra. }
  destruct (fequal_spec (lower (range_of lo hi)) 1) as [H1|]; [|reflexivity].
  destruct (fequal_spec (upper (range_of lo hi)) (-1)) as [H2|]; [|reflexivity]. exfalso.
  revert H1 H2. unfold Rabs. destruct (Rcase_abs _), (Rcase_abs _); lra.
Qed.

Lemma unbounded_is : is_unbounded unbounded_range = true.
Proof. unfold is_unbounded, unbounded_range. simpl. rewrite !fequal_refl. reflexivity. Qed.

Lemma fixed_of x : fixed_point x = range_of x x.
Proof. unfold range_of, fixed_point. destruct (Rltb_spec x x); reflexivity. Qed.

(** ** C09 *)
Theorem C09_range_check :
  forall a b x,
  (check (range_of a b) x = BelowLower <-> x < Rmin a b) /\
  (check (range_of a b) x = InRange <-> Rmin a b <= x <= Rmax a b) /\
  (check (range_of a b) x = AboveUpper <-> Rmax a b < x) /\
  (contains (range_of a b) x = true <-> Rmin a b <= x <= Rmax a b) /\
  (is_fixed_point (range_of a b) = true <-> a = b).
Proof.
  intros a b x. unfold check, contains. rewrite bounded_of. unfold is_fixed_point, range_of, Rmin, Rmax.
  destruct (Rle_dec a b) as [Hab|Hab]; destruct (Rltb_spec b a); try (exfalso; lra); simpl;
    repeat rtest; simpl; repeat split; intros; try discriminate; try reflexivity; try lra.
Qed.
Print Assumptions C09_range_check.

Theorem C09_range_order_irrelevant : forall a b, range_of a b = range_of b a.
Proof.
  intros a b. unfold range_of. destruct (Rltb_spec b a), (Rltb_spec a b); try reflexivity; try (exfalso; lra).
  replace b with a by lra. reflexivity.
Qed.
Print Assumptions C09_range_order_irrelevant.

Theorem C09_unbounded_and_fixed :
  (forall x, check unbounded_range x = InRange /\ contains unbounded_range x = true) /\
  (forall p x, contains (fixed_point p) x = true <-> x = p) /\
  (forall p x, check (fixed_point p) x = InRange <-> x = p) /\
  (forall p, is_fixed_point (fixed_point p) = true) /\
  (forall r, made r -> (is_unbounded r = true <-> r = unbounded_range)) /\
  (forall r x, made r -> (contains r x = true <-> check r x = InRange)).
Proof.
  split; [intros x; unfold check, contains; rewrite unbounded_is; auto|].
  split; [|split; [|split; [|split]]].
  - intros p x. rewrite fixed_of. rewrite (proj1 (proj2 (proj2 (proj2 (C09_range_check p p x))))).
    unfold Rmin, Rmax. destruct (Rle_dec p p); lra.
  - intros p x. rewrite fixed_of. rewrite (proj1 (proj2 (C09_range_check p p x))).
    unfold Rmin, Rmax. destruct (Rle_dec p p); lra.
  - intros p. unfold is_fixed_point. simpl. destruct (Reqb_spec p p); auto.
  - intros r [lo hi|x|].
    + rewrite bounded_of. split; [discriminate|]. intros E. pose proof (bounded_of lo hi) as Hb.
      rewrite E, unbounded_is in Hb. discriminate.
    + rewrite fixed_of, bounded_of. split; [discriminate|]. intros E. pose proof (bounded_of x x) as Hb.
      rewrite E, unbounded_is in Hb. discriminate.
    + rewrite unbounded_is. tauto.
  - intros r x [lo hi|y|].
    + rewrite (proj1 (proj2 (proj2 (proj2 (C09_range_check lo hi x))))).
      rewrite (proj1 (proj2 (C09_range_check lo hi x))). tauto.
    + rewrite fixed_of. rewrite (proj1 (proj2 (proj2 (proj2 (C09_range_check y y x))))).
      rewrite (proj1 (proj2 (C09_range_check y y x))). tauto.
    + unfold check, contains. rewrite unbounded_is. tauto.
Qed.
Print Assumptions C09_unbounded_and_fixed.

Theorem C09_equality :
  forall a b, (range_eq a b = true <-> a = b) /\ range_ne a b = negb (range_eq a b).
Proof.
  intros [a1 a2] [b1 b2]. unfold range_eq, range_ne. simpl. split.
  - destruct (Reqb_spec a1 b1), (Reqb_spec a2 b2); simpl; split; intros E; try discriminate; try congruence.
  - symmetry. apply Bool.negb_andb.
Qed.
Print Assumptions C09_equality.

(** limits given the wrong way round *)
Example C09_case : check (range_of 5 2) 5 = InRange /\ check (range_of 5 2) 6 = AboveUpper
  /\ check (range_of 5 2) 1 = BelowLower.
Proof.
  destruct (C09_range_check 5 2 5) as (_ & H & _).
  destruct (C09_range_check 5 2 6) as (_ & _ & H2 & _).
  destruct (C09_range_check 5 2 1) as (H3 & _).
  rewrite H, H2, H3. unfold Rmin, Rmax. destruct (Rle_dec 5 2); lra.
Qed.
