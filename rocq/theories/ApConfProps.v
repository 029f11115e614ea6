(* Apertures from a table along the machine.  Properties C324-C329. *)
From Verif Require Import RBase Aper AperSpec AperProps ApConf ApConfSpec.
From Coq Require Import String List Lia Lra.
Import ListNotations.
Local Open Scope string_scope.
Local Open Scope list_scope.
Local Open Scope R_scope.

(** ** C324: every row of the file with an aperture gives an entry at the beginning and one
    at the end of its element, other rows none, and the entries are in order when the
    elements follow each other *)
Lemma loads r L : (load_row (r, L) = [at_s (a_s r - L) r; r] <-> has_aperture r) /\ (load_row (r, L) = [] <-> ~ has_aperture r).
Proof.
  unfold load_row, has_aperture. cbn [fst snd].
  destruct (Reqb_spec (a_1 r) 0), (Reqb_spec (a_2 r) 0), (Reqb_spec (a_3 r) 0), (Reqb_spec (a_4 r) 0); cbn [negb orb]; split; split; intros H; try discriminate; try tauto.
Qed.
Theorem C324_with r L f : has_aperture r -> exists q, load ((r, L) :: f) = q :: r :: load f /\ moved L r q.
Proof. intros H. exists (at_s (a_s r - L) r). unfold load. cbn [flat_map]. rewrite (proj2 (proj1 (loads r L)) H). split; [reflexivity|]. repeat split. Qed.
Print Assumptions C324_with.
Theorem C324_without r L f : ~ has_aperture r -> load ((r, L) :: f) = load f.
Proof. intros H. unfold load. cbn [flat_map]. now rewrite (proj2 (proj2 (loads r L)) H). Qed.
Print Assumptions C324_without.
Lemma follows_weaken s0 s1 f : s0 <= s1 -> follows s1 f -> follows s0 f.
Proof. intros L H. destruct H; constructor; auto; lra. Qed.
Theorem C324_ordered f : forall s0, follows s0 f -> ordered (load f) /\ forall q, In q (load f) -> s0 <= a_s q.
Proof.
  induction f as [|[r L] f IH]; intros s0 H; [split; [constructor|intros q []]|]. inversion H as [|s1 r1 L1 f1 PL PS HF]; subst.
  destruct (IH _ HF) as (O & B). destruct (Reqb_spec (a_1 r) 0) as [Z1|Z1]; [destruct (Reqb_spec (a_2 r) 0) as [Z2|Z2]; [destruct (Reqb_spec (a_3 r) 0) as [Z3|Z3]; [destruct (Reqb_spec (a_4 r) 0) as [Z4|Z4]|]|]|].
  1: { rewrite C324_without by (unfold has_aperture; tauto). split; [exact O|]. intros q Q. apply B in Q. lra. }
  all: destruct (C324_with r L f) as (q & E & M); [unfold has_aperture; tauto|]; rewrite E; destruct M as (_ & M & _).
  all: split; [constructor; [intros x [<-|X]; [lra|apply B in X; lra]|constructor; [intros x X; apply B in X; lra|exact O]]|intros x [<-|[<-|X]]; [lra|lra|apply B in X; lra]].
Qed.
Print Assumptions C324_ordered.
Definition circ (s r : R) : arow := mkA "CIRCLE" s r 0 0 0.
Example C324_example : load [(circ 1 0.1, 1); (mkA "NONE" 3 0 0 0 0, 2); (circ 4 0.2, 1)] = [circ (1 - 1) 0.1; circ 1 0.1; circ (4 - 1) 0.2; circ 4 0.2]
  /\ follows 0 [(circ 1 0.1, 1); (mkA "NONE" 3 0 0 0 0, 2); (circ 4 0.2, 1)].
Proof.
  split; [|repeat (constructor; cbn; try lra)]. unfold load, load_row. cbn [flat_map fst snd circ a_1 a_2 a_3 a_4 a_s].
  rewrite (Reqb_false 0.1), (Reqb_false 0.2), (Reqb_true 0 0) by lra. reflexivity.
Qed.

(** ** the search for the first entry at or behind a position *)
Lemma none_below_spec p t : none_below p t = true <-> forall q, In q t -> p <= a_s q.
Proof.
  induction t as [|r t IH]; cbn [none_below]; [split; [intros _ q []|reflexivity]|]. destruct (Rltb_spec (a_s r) p) as [A|A]; cbn [negb andb].
  - split; [discriminate|]. intros H. specialize (H r (or_introl eq_refl)). lra.
  - rewrite IH. split; [intros H q [<-|Q]; [lra|auto]|intros H q Q; apply H; now right].
Qed.
Lemma lower_found p u r v : (forall q, In q u -> a_s q < p) -> p <= a_s r -> (forall q, In q v -> p <= a_s q) -> lower_bound p (u ++ r :: v) = Ok (List.length u).
Proof.
  induction u as [|x u IH]; intros U P V; cbn [app lower_bound List.length].
  - rewrite Rltb_false by lra. now rewrite (proj2 (none_below_spec p v) V).
  - rewrite Rltb_true by (apply U; now left). rewrite IH; auto. intros q Q. apply U. now right.
Qed.
Lemma lower_end p u : (forall q, In q u -> a_s q < p) -> lower_bound p u = Ok (List.length u).
Proof.
  induction u as [|x u IH]; intros U; cbn [lower_bound List.length]; [reflexivity|].
  rewrite Rltb_true by (apply U; now left). rewrite IH; auto. intros q Q. apply U. now right.
Qed.
Lemma ordered_app u v : ordered (u ++ v) <-> ordered u /\ ordered v /\ forall x y, In x u -> In y v -> a_s x <= a_s y.
Proof.
  induction u as [|r u IH]; cbn [app].
  - split; [intros H; split; [constructor|split; [auto|intros x y []]]|tauto].
  - split; intros H.
    + inversion H as [|r0 l0 A B]; subst. apply IH in B. destruct B as (B1 & B2 & B3). split; [constructor; auto; intros q Q; apply A, in_or_app; now left|].
      split; [auto|]. intros x y [<-|X] Y; [apply A, in_or_app; now right|auto].
    + destruct H as (A & B & C). inversion A as [|r0 l0 A1 A2]; subst. constructor.
      * intros q Q. apply in_app_or in Q. destruct Q as [Q|Q]; [auto|]. apply C; [now left|auto].
      * apply IH. split; [auto|]. split; [auto|]. intros x y X Y. apply C; [now right|auto].
Qed.
Lemma lower_first p t r : ordered t -> first_from p t r -> exists i, lower_bound p t = Ok i /\ nth_error t i = Some r.
Proof.
  intros O (u & v & -> & U & P). apply ordered_app in O. destruct O as (_ & O & _). inversion O as [|r0 l0 A B]; subst. exists (List.length u). split.
  - apply lower_found; auto. intros q Q. apply A in Q. lra.
  - rewrite nth_error_app2 by lia. now rewrite PeanoNat.Nat.sub_diag.
Qed.

(** ** C325: an element other than a drift gets the aperture of the first entry at or behind
    its position; when there is none an error is reported *)
Theorem C325_first t e r : ordered t -> c_type e <> "Drift" -> first_from (c_pos e) t r -> exists a, find_ap t e = Ok a /\ describes r a.
Proof.
  intros O N F. destruct (lower_first _ _ _ O F) as (i & L & E). unfold find_ap. destruct (String.eqb_spec (c_type e) "Drift") as [|_]; [contradiction|]. cbn [negb].
  rewrite L. cbn [bind]. unfold row_at. rewrite E. cbn [bind]. eexists. split; reflexivity.
Qed.
Print Assumptions C325_first.
Theorem C325_beyond t e : c_type e <> "Drift" -> (forall q, In q t -> a_s q < c_pos e) -> find_ap t e = Throw OutOfRange.
Proof.
  intros N U. unfold find_ap. destruct (String.eqb_spec (c_type e) "Drift") as [|_]; [contradiction|]. cbn [negb].
  rewrite (lower_end _ _ U). cbn [bind]. unfold row_at. now rewrite (proj2 (nth_error_None t (List.length t))) by lia.
Qed.
Print Assumptions C325_beyond.
Definition magnet (p l : R) : elem := mkE "Quadrupole" l p None.
Example C325_example : first_from 2 [circ 0 0.1; circ 1 0.1; circ 3 0.2; circ 4 0.2] (circ 3 0.2).
Proof. exists [circ 0 0.1; circ 1 0.1], [circ 4 0.2]. split; [reflexivity|]. split; [|cbn; lra]. intros q [<-|[<-|[]]]; cbn; lra. Qed.

(** ** C326: an element gets the aperture listed for it.  Refuted: when the element before it
    ends where it begins and has an aperture, it gets that one *)
Lemma load_app f g : load (f ++ g) = load f ++ load g.
Proof. unfold load. apply flat_map_app. Qed.
Lemma follows_app f g : forall s0, follows s0 (f ++ g) -> follows s0 f /\ exists s1, s0 <= s1 /\ follows s1 g /\ forall q, In q (load f) -> a_s q <= s1.
Proof.
  induction f as [|[r L] f IH]; intros s0 H; cbn [app] in H.
  - split; [constructor|]. exists s0. split; [lra|]. split; [auto|]. intros q [].
  - inversion H as [|s1 r1 L1 f1 PL PS HF]; subst. apply IH in HF. destruct HF as (F1 & s1 & G1 & G2 & G3). split; [constructor; auto|]. exists s1. split; [lra|]. split; [auto|].
    intros q Q. unfold load in Q. cbn [flat_map] in Q. apply in_app_or in Q. destruct Q as [Q|Q]; [|auto].
    unfold load_row in Q. cbn [fst snd] in Q. destruct (_ || _)%bool; [|destruct Q]. destruct Q as [<-|[<-|[]]]; cbn; lra.
Qed.
Theorem C326_refuted f g r1 L1 r2 L2 s0 e : follows s0 (f ++ (r1, L1) :: (r2, L2) :: g) -> has_aperture r1 -> 0 < L1 -> a_s r1 = a_s r2 - L2 ->
  c_type e <> "Drift" -> c_pos e = a_s r2 - L2 ->
  exists a, find_ap (load (f ++ (r1, L1) :: (r2, L2) :: g)) e = Ok a /\ describes r1 a /\ (plain_of r1 <> plain_of r2 -> ~ describes r2 a).
Proof.
  intros F H1 P1 E N P. pose proof (proj1 (C324_ordered _ _ F)) as O. destruct (follows_app _ _ _ F) as (_ & s1 & _ & F2 & B). inversion F2 as [|s2 x1 x2 x3 PL PS HF]; subst.
  destruct (C325_first (load (f ++ (r1, L1) :: (r2, L2) :: g)) e r1 O N) as (a & A & D).
  - rewrite load_app. destruct (C324_with r1 L1 ((r2, L2) :: g) H1) as (q & -> & M). destruct M as (_ & M & _). exists (load f ++ [q]), (load ((r2, L2) :: g)).
    split; [now rewrite <- app_assoc|]. split; [|lra]. intros x X. apply in_app_or in X. destruct X as [X|[<-|[]]]; [apply B in X; lra|lra].
  - exists a. split; [exact A|]. split; [exact D|]. intros NE D2. apply NE. unfold describes, plain_of in *. congruence.
Qed.
Print Assumptions C326_refuted.
(* with a gap before it, it gets its own *)
Theorem C326_gap f g r2 L2 s0 e : follows s0 (f ++ (r2, L2) :: g) -> has_aperture r2 -> (forall q, In q (load f) -> a_s q < a_s r2 - L2) ->
  c_type e <> "Drift" -> c_pos e = a_s r2 - L2 -> exists a, find_ap (load (f ++ (r2, L2) :: g)) e = Ok a /\ describes r2 a.
Proof.
  intros F H2 G N P. pose proof (proj1 (C324_ordered _ _ F)) as O. destruct (C324_with r2 L2 g H2) as (q & E & M). destruct (C325_first (load (f ++ (r2, L2) :: g)) e q O N) as (a & A & D).
  - rewrite load_app, E. destruct M as (_ & M & _). exists (load f), (r2 :: load g). split; [reflexivity|]. split; [|lra]. intros x X. apply G in X. lra.
  - exists a. split; [exact A|]. destruct M as (M1 & _ & M2 & M3 & M4 & M5). unfold describes in *. now rewrite M1, M2, M3, M4, M5 in D.
Qed.
Print Assumptions C326_gap.
Example C326_example : exists a, find_ap (load [(circ 1 0.1, 1); (circ 4 0.02, 3)]) (magnet 1 3) = Ok a /\ a = Some (Plain (Circle 0.1)).
Proof.
  destruct (C326_refuted [] [] (circ 1 0.1) 1 (circ 4 0.02) 3 0 (magnet 1 3)) as (a & A & D & _); try (cbn; lra); try discriminate.
  - repeat (constructor; cbn; try lra).
  - left. cbn. lra.
  - exists a. split; [exact A|]. rewrite D. cbn. now rewrite Reqb_true by lra.
Qed.

(** ** C327: configuring sets only missing apertures of elements which have a length; type,
    length, position and order of the elements stay *)
Theorem C327_frame t l : forall l' n, configure_all t l = Ok (l', n) ->
  Forall2 (fun e e' => c_type e' = c_type e /\ c_len e' = c_len e /\ c_pos e' = c_pos e /\
    (c_ap e <> None \/ c_len e = 0 -> c_ap e' = c_ap e) /\ (c_ap e = None -> c_len e <> 0 -> find_ap t e = Ok (c_ap e'))) l l' /\
  n = List.length (filter (fun e => match c_ap e with None => negb (Reqb (c_len e) 0) | _ => false end) l).
Proof.
  induction l as [|e l IH]; intros l' n H; cbn [configure_all] in H.
  - injection H as <- <-. split; [constructor|reflexivity].
  - unfold wanted in H. cbn [filter]. destruct (c_ap e) as [a|] eqn:A.
    + destruct (configure_all t l) as [[l1 n1]| |] eqn:C; try discriminate. injection H as <- <-. destruct (IH _ _ eq_refl) as (F & N). cbn [fst snd].
      split; [|exact N]. constructor; [|exact F]. repeat split; auto. intros X; congruence.
    + destruct (Reqb_spec (c_len e) 0) as [Z|Z]; cbn [negb] in *.
      * destruct (configure_all t l) as [[l1 n1]| |] eqn:C; try discriminate. injection H as <- <-. destruct (IH _ _ eq_refl) as (F & N). cbn [fst snd].
        split; [|exact N]. constructor; [|exact F]. repeat split; auto. intros _ X; contradiction.
      * destruct (find_ap t e) as [a| |] eqn:FA; try discriminate. cbn [bind] in H. destruct (configure_all t l) as [[l1 n1]| |] eqn:C; try discriminate. injection H as <- <-.
        destruct (IH _ _ eq_refl) as (F & N). cbn [fst snd List.length]. split; [|now rewrite N]. constructor; [|exact F]. cbn [set_ap c_type c_len c_pos c_ap]. repeat split; auto.
        intros [X|X]; congruence.
Qed.
Print Assumptions C327_frame.
(* it fails exactly when the search for one of them fails *)
Theorem C327_succeeds t l : (forall e, In e l -> c_ap e = None -> c_len e <> 0 -> exists a, find_ap t e = Ok a) -> exists r, configure_all t l = Ok r.
Proof.
  induction l as [|e l IH]; intros H; cbn [configure_all]; [eauto|]. destruct IH as (r & R); [intros x X; apply H; now right|]. unfold wanted. rewrite R.
  destruct (c_ap e) as [a|] eqn:A; [cbn [bind]; eauto|]. destruct (Reqb_spec (c_len e) 0) as [Z|Z]; cbn [negb]; [cbn [bind]; eauto|].
  destruct (H e (or_introl eq_refl) A Z) as (a & ->). cbn [bind]. eauto.
Qed.
Print Assumptions C327_succeeds.

(** ** C328: configuring twice is the same as once *)
Lemma find_same t e e' : c_type e' = c_type e -> c_len e' = c_len e -> c_pos e' = c_pos e -> find_ap t e' = find_ap t e.
Proof. intros A B C. unfold find_ap. now rewrite A, B, C. Qed.
Theorem C328_again t l l' n : configure_all t l = Ok (l', n) -> exists m, configure_all t l' = Ok (l', m) /\ (m <= n)%nat.
Proof.
  intros H. apply C327_frame in H. destruct H as (F & ->). induction F as [|e e' l l' (T & L & P & K & S) F (m & C & M)]; [exists O; split; [reflexivity|cbn; lia]|].
  cbn [configure_all filter]. rewrite C. unfold wanted. destruct (c_ap e) as [a|] eqn:A.
  - rewrite K by (left; discriminate). cbn [bind fst snd]. exists m. auto.
  - rewrite L. destruct (Reqb_spec (c_len e) 0) as [Z|Z]; cbn [negb].
    + rewrite K by auto. cbn [bind fst snd]. exists m. auto.
    + specialize (S eq_refl Z). destruct (c_ap e') as [b|] eqn:B; cbn [bind fst snd List.length].
      * exists m. split; [reflexivity|lia].
      * rewrite (find_same t e e' T L P), S. cbn [bind fst snd]. exists (Datatypes.S m). split; [|lia]. do 3 f_equal. destruct e' as [x y z w]. cbn in B. subst w. reflexivity.
Qed.
Print Assumptions C328_again.

(** ** C329: the number of configured apertures is the number of elements that got one.
    Refuted: entries of an unknown type are counted, the element stays without *)
Theorem C329_refuted t e r : ordered t -> c_type e <> "Drift" -> c_ap e = None -> c_len e <> 0 -> first_from (c_pos e) t r ->
  make_aperture (a_t r) (a_1 r) (a_2 r) (a_3 r) (a_4 r) = None -> configure_all t [e] = Ok ([e], 1%nat).
Proof.
  intros O N A Z F M. destruct (C325_first t e r O N F) as (a & E & D). cbn [configure_all]. unfold wanted. rewrite A, (Reqb_false _ _ Z). cbn [negb]. rewrite E. cbn [bind fst snd].
  unfold describes in D. rewrite M in D. cbn in D. subst a. do 3 f_equal. destruct e. cbn in A. now subst.
Qed.
Print Assumptions C329_refuted.
Example C329_example : make_aperture "RACETRACK" 0.1 0.1 0.1 0.1 = None.
Proof. reflexivity. Qed.
Example C327_example : exists l, configure_all [circ 0 0.1; circ 1 0.1; circ 3 0.2; circ 4 0.2] [magnet 2 1; mkE "Marker" 0 3 None; magnet 3 1] = Ok (l, 2%nat).
Proof.
  destruct (C327_succeeds [circ 0 0.1; circ 1 0.1; circ 3 0.2; circ 4 0.2] [magnet 2 1; mkE "Marker" 0 3 None; magnet 3 1]) as ([l n] & H).
  - assert (O : ordered [circ 0 0.1; circ 1 0.1; circ 3 0.2; circ 4 0.2]).
    { repeat (constructor; [intros q Q; cbn in Q; repeat (destruct Q as [<-|Q]; [cbn; lra|]); destruct Q|]). constructor. }
    intros e [<-|[<-|[<-|[]]]] _ Z.
    + destruct (C325_first _ (magnet 2 1) (circ 3 0.2) O) as (a & A & _); [discriminate|exact C325_example|eauto].
    + contradiction Z. reflexivity.
    + destruct (C325_first _ (magnet 3 1) (circ 3 0.2) O) as (a & A & _); [discriminate| |eauto].
      exists [circ 0 0.1; circ 1 0.1], [circ 4 0.2]. split; [reflexivity|]. split; [|cbn; lra]. intros q [<-|[<-|[]]]; cbn; lra.
  - exists l. rewrite H. destruct (C327_frame _ _ _ _ H) as (_ & ->). cbn [filter magnet c_ap c_len]. rewrite (Reqb_false 1), (Reqb_true 0) by lra. reflexivity.
Qed.
