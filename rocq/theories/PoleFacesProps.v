(* C206-C207: pole faces of sector bends *)
From Coq Require Import Lia.
From Verif Require Import RBase SympInt TransInt PoleFaces PoleFacesSpec.

(* ---- heap and bends ---- *)
Lemma face_at_lt h l p : face_at h l = Some p -> (l < length h)%nat.
Proof. unfold face_at. intros H. apply nth_error_Some. intros E. rewrite E in H. discriminate. Qed.
Lemma nth_write h l c k : nth_error (write h l c) k = if Nat.eqb k l then (if Nat.ltb l (length h) then Some c else None) else nth_error h k.
Proof.
  revert l k. induction h as [|x h IH]; intros l k; [destruct l, k; cbn; try reflexivity; destruct (Nat.eqb k l); reflexivity|].
  destruct l, k; cbn; try reflexivity. rewrite IH. reflexivity.
Qed.
Lemma face_write h l c k : face_at h l <> None -> face_at (write h l c) k = if Nat.eqb k l then c else face_at h k.
Proof.
  intros A. unfold face_at. rewrite nth_write. destruct (Nat.eqb k l); [|reflexivity]. destruct (face_at h l) as [p|] eqn:E; [|contradiction]. apply face_at_lt in E. apply Nat.ltb_lt in E. rewrite E. destruct c; reflexivity.
Qed.
Lemma length_write h l c : length (write h l c) = length h.
Proof. revert l. induction h as [|x h IH]; intros [|l]; cbn; auto. Qed.
Lemma face_app h f k : face_at (h ++ [Some f]) k = if Nat.eqb k (length h) then Some f else face_at h k.
Proof.
  unfold face_at. destruct (Nat.eqb_spec k (length h)) as [->|N]; [rewrite nth_error_app2, Nat.sub_diag by lia; reflexivity|].
  destruct (Nat.lt_ge_cases k (length h)) as [L|L]; [now rewrite nth_error_app1|]. rewrite nth_error_app2 by lia. rewrite (proj2 (nth_error_None h k)) by lia. destruct (k - length h)%nat as [|n] eqn:Q; [lia|]. destruct n; reflexivity.
Qed.
Lemma nth_put l b i c : nth_error (put_bend l b i) c = if Nat.eqb c b then (if Nat.ltb b (length l) then Some i else None) else nth_error l c.
Proof.
  revert b c. induction l as [|x l IH]; intros b c; [destruct b, c; cbn; try reflexivity; destruct (Nat.eqb c b); reflexivity|].
  destruct b, c; cbn; try reflexivity. rewrite IH. reflexivity.
Qed.
Lemma bend_put s h b i c j : bend_of s b = Some j -> bend_of (mkSt h (put_bend (bends s) b i)) c = if Nat.eqb c b then i else bend_of s c.
Proof.
  intros B. unfold bend_of in *. cbn [bends]. rewrite nth_put. destruct (Nat.eqb c b); [|reflexivity]. destruct (nth_error (bends s) b) as [x|] eqn:E; [|discriminate].
  assert (L : (b < length (bends s))%nat) by (apply nth_error_Some; rewrite E; discriminate). apply Nat.ltb_lt in L. rewrite L. destruct i; reflexivity.
Qed.
Lemma bend_app s h i c : bend_of (mkSt h (bends s ++ [Some i])) c = if Nat.eqb c (length (bends s)) then Some i else bend_of s c.
Proof.
  unfold bend_of. cbn [bends]. destruct (Nat.eqb_spec c (length (bends s))) as [->|N]; [rewrite nth_error_app2, Nat.sub_diag by lia; reflexivity|].
  destruct (Nat.lt_ge_cases c (length (bends s))) as [L|L]; [now rewrite nth_error_app1|]. rewrite nth_error_app2 by lia. rewrite (proj2 (nth_error_None (bends s) c)) by lia. destruct (c - length (bends s))%nat as [|n] eqn:Q; [lia|]. destruct n; reflexivity.
Qed.
Lemma bend_lt s b i : bend_of s b = Some i -> (b < length (bends s))%nat.
Proof. unfold bend_of. intros H. apply nth_error_Some. intros E. rewrite E in H. discriminate. Qed.

(* ---- the functions ---- *)
Definition look (h : heap) (e : option loc) : option pface := match e with Some l => face_at h l | None => None end.
Lemma shown_look s b : shown s b = match bend_of s b with None => None | Some i => Some (look (hp s) (entr i), look (hp s) (exit_ i)) end.
Proof. reflexivity. Qed.
Lemma clear_ok h i : (forall l, holds i l -> face_at h l <> None) -> exists h', clear h i = Ok h' /\ (forall l, holds i l -> face_at h' l = None) /\ forall l, ~ holds i l -> face_at h' l = face_at h l.
Proof.
  unfold clear, holds, free. destruct i as [[a|] [b|]]; cbn [entr exit_ same_ptr bind]; intros A.
  - assert (NA : face_at h a <> None) by (apply A; auto). destruct (face_at h a) as [p|] eqn:EA; [|contradiction]. cbn [bind]. destruct (Nat.eqb_spec b a) as [->|N].
    + eexists. split; [reflexivity|]. split; intros l L; rewrite face_write by (rewrite EA; discriminate); destruct (Nat.eqb_spec l a) as [->|]; auto; [destruct L as [L|L]; injection L as <-; contradiction|exfalso; auto].
    + assert (NB : face_at h b <> None) by (apply A; auto). assert (EB : face_at (write h a None) b = face_at h b) by (rewrite face_write by (rewrite EA; discriminate); destruct (Nat.eqb_spec b a); [contradiction|reflexivity]).
      rewrite EB. destruct (face_at h b) as [q|] eqn:Eb; [|contradiction]. eexists. split; [reflexivity|].
      split; intros l L; rewrite face_write by (rewrite EB; discriminate); rewrite face_write by (rewrite EA; discriminate); destruct (Nat.eqb_spec l b), (Nat.eqb_spec l a); subst; auto; try (exfalso; tauto). destruct L as [L|L]; injection L as <-; contradiction.
  - assert (NA : face_at h a <> None) by (apply A; auto). destruct (face_at h a) as [p|] eqn:EA; [|contradiction]. cbn [bind]. eexists. split; [reflexivity|].
    split; intros l L; rewrite face_write by (rewrite EA; discriminate); destruct (Nat.eqb_spec l a) as [->|]; auto; [destruct L as [L|L]; [injection L as <-; contradiction|discriminate]|exfalso; auto].
  - assert (NB : face_at h b <> None) by (apply A; auto). destruct (face_at h b) as [p|] eqn:EA; [|contradiction]. cbn [bind]. eexists. split; [reflexivity|].
    split; intros l L; rewrite face_write by (rewrite EA; discriminate); destruct (Nat.eqb_spec l b) as [->|]; auto; [destruct L as [L|L]; [discriminate|injection L as <-; contradiction]|exfalso; auto].
  - eexists. split; [reflexivity|]. split; [intros l [L|L]; discriminate|reflexivity].
Qed.
Lemma clone_ok h e : (forall l, e = Some l -> face_at h l <> None) -> exists h' e', clone h e = Ok (h', e') /\ look h' e' = look h e /\ (length h <= length h')%nat /\ (forall l, (l < length h)%nat -> face_at h' l = face_at h l) /\ (forall l, face_at h l <> None -> face_at h' l = face_at h l) /\
  (forall l, e' = Some l -> (length h <= l)%nat /\ face_at h' l <> None) /\ (forall l, (length h <= l)%nat -> face_at h' l <> None -> e' = Some l).
Proof.
  intros A. unfold clone. destruct e as [a|].
  - specialize (A a eq_refl). destruct (face_at h a) as [p|] eqn:E; [|contradiction]. do 2 eexists. split; [reflexivity|]. split; [cbn [look]; rewrite face_app, Nat.eqb_refl; auto|]. split; [rewrite app_length; cbn; lia|].
    split; [intros l L; rewrite face_app; destruct (Nat.eqb_spec l (length h)); [lia|reflexivity]|]. split; [intros l L; rewrite face_app; destruct (Nat.eqb_spec l (length h)) as [->|]; [|reflexivity]; exfalso; apply L; unfold face_at; now rewrite (proj2 (nth_error_None h (length h))) by lia|].
    split; [intros l L; injection L as <-; rewrite face_app, Nat.eqb_refl; split; [lia|discriminate]|]. intros l L N. rewrite face_app in N. destruct (Nat.eqb_spec l (length h)) as [->|]; [reflexivity|]. exfalso. apply N. unfold face_at. now rewrite (proj2 (nth_error_None h l)) by lia.
  - exists h, None. repeat split; try discriminate; try lia; auto. intros l L N. exfalso. apply N. unfold face_at. now rewrite (proj2 (nth_error_None h l)) by lia.
Qed.
Lemma same_ptr_spec p q : same_ptr p q = true <-> p = q.
Proof. destruct p as [a|], q as [b|]; cbn; split; intros H; try discriminate; try reflexivity; [apply Nat.eqb_eq in H; congruence|injection H as ->; apply Nat.eqb_refl]. Qed.
Lemma copy_ok h i : (forall l, holds i l -> face_at h l <> None) -> exists h' j, copy_info h i = Ok (h', j) /\ look h' (entr j) = look h (entr i) /\ look h' (exit_ j) = look h (exit_ i) /\
  (forall l, (l < length h)%nat -> face_at h' l = face_at h l) /\ (forall l, holds j l -> (length h <= l)%nat /\ face_at h' l <> None) /\ (forall l, (length h <= l)%nat -> face_at h' l <> None -> holds j l).
Proof.
  intros A. unfold copy_info, holds. destruct (clone_ok h (entr i)) as (h1 & e & E1 & L1 & N1 & K1 & K1' & F1 & O1); [intros l L; apply A; left; exact L|]. rewrite E1. cbn [bind fst snd].
  destruct (same_ptr (entr i) (exit_ i)) eqn:SP.
  - apply same_ptr_spec in SP. do 2 eexists. split; [reflexivity|]. cbn [entr exit_]. rewrite <- SP. repeat split; auto; try (destruct H as [H|H]; apply F1; exact H). 
  - destruct (clone_ok h1 (exit_ i)) as (h2 & e2 & E2 & L2 & N2 & K2 & K2' & F2 & O2).
    { intros l L. assert (X : face_at h l <> None) by (apply A; right; exact L). rewrite K1' by exact X. exact X. }
    rewrite E2. cbn [bind fst snd]. do 2 eexists. split; [reflexivity|]. cbn [entr exit_]. split; [|split; [|split; [|split]]].
    + rewrite <- L1. destruct e as [l|]; [|reflexivity]. cbn [look]. apply K2'. apply F1. reflexivity.
    + rewrite L2. destruct (exit_ i) as [l|] eqn:EX; [|reflexivity]. cbn [look]. apply K1'. apply A. right. exact EX.
    + intros l L. rewrite K2 by lia. now apply K1.
    + intros l [L|L]; [destruct (F1 l L) as [G1 G2]; split; [exact G1|rewrite K2' by exact G2; exact G2]|destruct (F2 l L); split; [lia|assumption]].
    + intros l L N. destruct (Nat.lt_ge_cases l (length h1)) as [G|G]; [left; apply O1; [exact L|rewrite <- K2 by exact G; exact N]|right; now apply O2].
Qed.
Lemma type_ok h l t : face_at h l <> None -> exists h', set_type h (Some l) t = Ok h' /\ face_at h' l = option_map (typed t) (face_at h l) /\ forall k, k <> l -> face_at h' k = face_at h k.
Proof.
  intros A. unfold set_type. destruct (face_at h l) as [p|] eqn:E; [|contradiction]. eexists. split; [reflexivity|]. split; [rewrite face_write, Nat.eqb_refl by (rewrite E; discriminate); reflexivity|].
  intros k N. rewrite face_write by (rewrite E; discriminate). destruct (Nat.eqb_spec k l); [contradiction|reflexivity].
Qed.

(* ---- states ---- *)
Definition elsewhere (s : state) (b : nat) (l : loc) : Prop := exists c k, c <> b /\ bend_of s c = Some k /\ holds k l.
Lemma update s b i j h' : sound s -> bend_of s b = Some i -> (forall l, elsewhere s b l -> face_at h' l = face_at (hp s) l) -> (forall l, holds j l -> face_at h' l <> None /\ ~ elsewhere s b l) ->
  let s' := mkSt h' (put_bend (bends s) b (Some j)) in sound s' /\ (forall c, c <> b -> shown s' c = shown s c) /\ shown s' b = Some (look h' (entr j), look h' (exit_ j)) /\ (forall l, owned s' l <-> holds j l \/ elsewhere s b l).
Proof.
  intros [S1 S2] B F J s'. assert (G : forall c, bend_of s' c = if Nat.eqb c b then Some j else bend_of s c) by (intros c; exact (bend_put s h' b (Some j) c i B)). split; [|split; [|split]].
  - split.
    + intros c k l. rewrite G. destruct (Nat.eqb_spec c b) as [->|N]; intros E H; [injection E as <-; apply J; exact H|]. assert (EW : elsewhere s b l) by (exists c, k; auto). unfold alive, s'. cbn [hp]. rewrite F by exact EW. exact (S1 c k l E H).
    + intros c d k m l. rewrite !G. destruct (Nat.eqb_spec c b) as [->|N], (Nat.eqb_spec d b) as [->|N']; intros E E' H H'; try reflexivity.
      * injection E as <-. exfalso. apply (proj2 (J l H)). exists d, m. auto.
      * injection E' as <-. exfalso. apply (proj2 (J l H')). exists c, k. auto.
      * eapply S2; eassumption.
  - intros c N. rewrite !shown_look, G. destruct (Nat.eqb_spec c b); [contradiction|]. destruct (bend_of s c) as [k|] eqn:E; [|reflexivity]. cbn [s' hp].
    assert (X : forall e, (e = entr k \/ e = exit_ k) -> look h' e = look (hp s) e). { intros [l|] Q; [|reflexivity]. cbn [look]. apply F. exists c, k. split; [exact N|]. split; [exact E|]. unfold holds. destruct Q as [<-|<-]; auto. }
    rewrite !X by auto. reflexivity.
  - rewrite shown_look, G, Nat.eqb_refl. reflexivity.
  - intros l. split.
    + intros (c & k & E & H). rewrite G in E. destruct (Nat.eqb_spec c b) as [->|N]; [injection E as <-; auto|right; exists c, k; auto].
    + intros [H|(c & k & N & E & H)]; [exists b, j|exists c, k]; rewrite G; [rewrite Nat.eqb_refl; auto|destruct (Nat.eqb_spec c b); [contradiction|auto]].
Qed.
Lemma added s j h' : sound s -> (forall l, alive s l -> face_at h' l = face_at (hp s) l) -> (forall l, holds j l -> face_at h' l <> None /\ ~ owned s l) ->
  let s' := mkSt h' (bends s ++ [Some j]) in sound s' /\ (forall c, c <> length (bends s) -> shown s' c = shown s c) /\ shown s' (length (bends s)) = Some (look h' (entr j), look h' (exit_ j)) /\ (forall l, owned s' l <-> holds j l \/ owned s l).
Proof.
  intros [S1 S2] F J s'. assert (G : forall c, bend_of s' c = if Nat.eqb c (length (bends s)) then Some j else bend_of s c) by (intros c; apply bend_app). split; [|split; [|split]].
  - split.
    + intros c k l. rewrite G. destruct (Nat.eqb_spec c (length (bends s))) as [->|N]; intros E H; [injection E as <-; apply J; exact H|]. assert (A : alive s l) by exact (S1 c k l E H). unfold alive, s'. cbn [hp]. rewrite F by exact A. exact A.
    + intros c d k m l. rewrite !G. destruct (Nat.eqb_spec c (length (bends s))) as [->|N], (Nat.eqb_spec d (length (bends s))) as [->|N']; intros E E' H H'; try reflexivity.
      * injection E as <-. exfalso. apply (proj2 (J l H)). exists d, m. auto.
      * injection E' as <-. exfalso. apply (proj2 (J l H')). exists c, k. auto.
      * eapply S2; eassumption.
  - intros c N. rewrite !shown_look, G. destruct (Nat.eqb_spec c (length (bends s))); [contradiction|]. destruct (bend_of s c) as [k|] eqn:E; [|reflexivity]. cbn [s' hp].
    assert (X : forall e, (e = entr k \/ e = exit_ k) -> look h' e = look (hp s) e). { intros [l|] Q; [|reflexivity]. cbn [look]. apply F. apply (S1 c k l E). unfold holds. destruct Q as [<-|<-]; auto. }
    rewrite !X by auto. reflexivity.
  - rewrite shown_look, G, Nat.eqb_refl. reflexivity.
  - intros l. split.
    + intros (c & k & E & H). rewrite G in E. destruct (Nat.eqb_spec c (length (bends s))) as [->|N]; [injection E as <-; auto|right; exists c, k; auto].
    + intros [H|(c & k & E & H)]; [exists (length (bends s)), j|exists c, k]; rewrite G; [rewrite Nat.eqb_refl; auto|]. pose proof (bend_lt _ _ _ E). destruct (Nat.eqb_spec c (length (bends s))); [lia|auto].
Qed.
Lemma removed s b i h' : sound s -> bend_of s b = Some i -> (forall l, elsewhere s b l -> face_at h' l = face_at (hp s) l) ->
  let s' := mkSt h' (put_bend (bends s) b None) in sound s' /\ (forall c, c <> b -> shown s' c = shown s c) /\ shown s' b = None /\ (forall l, owned s' l <-> elsewhere s b l).
Proof.
  intros [S1 S2] B F s'. assert (G : forall c, bend_of s' c = if Nat.eqb c b then None else bend_of s c) by (intros c; exact (bend_put s h' b None c i B)). split; [|split; [|split]].
  - split.
    + intros c k l. rewrite G. destruct (Nat.eqb_spec c b) as [->|N]; intros E H; [discriminate|]. assert (EW : elsewhere s b l) by (exists c, k; auto). unfold alive, s'. cbn [hp]. rewrite F by exact EW. exact (S1 c k l E H).
    + intros c d k m l. rewrite !G. destruct (Nat.eqb_spec c b) as [->|N], (Nat.eqb_spec d b) as [->|N']; intros E E' H H'; try discriminate. eapply S2; eassumption.
  - intros c N. rewrite !shown_look, G. destruct (Nat.eqb_spec c b); [contradiction|]. destruct (bend_of s c) as [k|] eqn:E; [|reflexivity]. cbn [s' hp].
    assert (X : forall e, (e = entr k \/ e = exit_ k) -> look h' e = look (hp s) e). { intros [l|] Q; [|reflexivity]. cbn [look]. apply F. exists c, k. split; [exact N|]. split; [exact E|]. unfold holds. destruct Q as [<-|<-]; auto. }
    rewrite !X by auto. reflexivity.
  - rewrite shown_look, G, Nat.eqb_refl. reflexivity.
  - intros l. split.
    + intros (c & k & E & H). rewrite G in E. destruct (Nat.eqb_spec c b) as [->|N]; [discriminate|exists c, k; auto].
    + intros (c & k & N & E & H). exists c, k. rewrite G. destruct (Nat.eqb_spec c b); [contradiction|auto].
Qed.
Lemma not_elsewhere s b i l : sound s -> bend_of s b = Some i -> holds i l -> ~ elsewhere s b l.
Proof. intros [_ S2] B H (c & k & N & E & K). apply N. eapply S2; eassumption. Qed.
Lemma owned_split s b i l : bend_of s b = Some i -> owned s l -> holds i l \/ elsewhere s b l.
Proof. intros B (c & k & E & H). destruct (Nat.eq_dec c b) as [->|N]; [left; congruence|right; exists c, k; auto]. Qed.

(* ---- C206 ---- *)
(* One step of a program that hands over each face once: it is defined, every bend shows what
   it should, and what a bend has owned is freed or still owned. *)
Theorem C206_step s o : sound s -> proper s o -> exists s', step s o = Ok s' /\ sound s' /\ (forall b, shown s' b = wanted s o b) /\ (forall l, owned s l -> alive s' l -> owned s' l) /\
  (forall l, alive s l -> ~ owned s l -> ~ owned s' l -> face_at (hp s') l = face_at (hp s) l).
Proof.
  intros S P. pose proof S as [S1 S2]. destruct o as [f| |b e1 e2|b e|b|b c|b|b]; cbn [proper] in P.
  - eexists. split; [reflexivity|]. assert (A : forall l, alive s l -> face_at (hp s ++ [Some f]) l = face_at (hp s) l).
    { intros l A. rewrite face_app. destruct (Nat.eqb_spec l (length (hp s))) as [->|]; [|reflexivity]. exfalso. apply A. unfold face_at. now rewrite (proj2 (nth_error_None (hp s) (length (hp s)))) by lia. }
    split; [split; [intros b i l B H; unfold alive; cbn [hp]; rewrite A by (eapply S1; eassumption); eapply S1; eassumption|exact S2]|].
    split; [intros b; cbn [wanted]; rewrite !shown_look; change (bend_of (mkSt (hp s ++ [Some f]) (bends s)) b) with (bend_of s b); destruct (bend_of s b) as [k|] eqn:E; [|reflexivity]; cbn [hp];
      assert (X : forall e, (e = entr k \/ e = exit_ k) -> look (hp s ++ [Some f]) e = look (hp s) e) by (intros [l|] Q; [|reflexivity]; cbn [look]; apply A; apply (S1 b k l E); unfold holds; destruct Q as [<-|<-]; auto); rewrite !X by auto; reflexivity|].
    split; [intros l O _; exact O|]. intros l L _ _. now apply A.
  - eexists. split; [reflexivity|]. destruct (added s (mkI None None) (hp s) S) as (Q1 & Q2 & Q3 & Q4); [reflexivity|intros l [H|H]; discriminate|]. split; [exact Q1|]. split; [|split].
    + intros b. cbn [wanted]. destruct (Nat.eqb_spec b (length (bends s))) as [->|N]; [exact Q3|now apply Q2].
    + intros l O _. apply Q4. auto.
    + reflexivity.
  - destruct P as (B & (l1 & -> & A1 & O1) & (l2 & -> & A2 & O2) & NE). destruct (bend_of s b) as [i|] eqn:Bi; [|contradiction]. cbn [step]. unfold on_bend. rewrite Bi. unfold set_both.
    destruct (clear_ok (hp s) i) as (h1 & -> & C1 & C2); [intros l H; exact (S1 b i l Bi H)|]. cbn [bind].
    assert (N1 : ~ holds i l1) by (intros H; apply O1; exists b, i; auto). assert (N2 : ~ holds i l2) by (intros H; apply O2; exists b, i; auto). assert (N12 : l2 <> l1) by congruence.
    destruct (type_ok h1 l1 1) as (h2 & -> & T1 & T1'); [rewrite C2 by exact N1; exact A1|]. cbn [bind]. destruct (type_ok h2 l2 0) as (h3 & -> & T2 & T2'); [rewrite T1', C2 by assumption; exact A2|]. cbn [bind fst snd].
    assert (R1 : face_at h3 l1 = option_map (typed 1) (face_at (hp s) l1)) by (rewrite T2', T1, C2 by auto; reflexivity). assert (R2 : face_at h3 l2 = option_map (typed 0) (face_at (hp s) l2)) by (rewrite T2, T1', C2 by auto; reflexivity).
    assert (R3 : forall l, ~ holds i l -> l <> l1 -> l <> l2 -> face_at h3 l = face_at (hp s) l) by (intros l X1 X2 X3; rewrite T2', T1', C2 by auto; reflexivity).
    assert (EO : forall l, elsewhere s b l -> owned s l) by (intros l (c & k & _ & E & H); exists c, k; auto).
    eexists. split; [reflexivity|]. destruct (update s b i (mkI (Some l1) (Some l2)) h3 S Bi) as (Q1 & Q2 & Q3 & Q4).
    + intros l E. apply R3; [intros H; exact (not_elsewhere s b i l S Bi H E)|intros ->; apply O1; auto|intros ->; apply O2; auto].
    + intros l [H|H]; cbn in H; injection H as <-; (split; [|auto]); [rewrite R1; unfold alive in A1; destruct (face_at (hp s) l1); [discriminate|contradiction]|rewrite R2; unfold alive in A2; destruct (face_at (hp s) l2); [discriminate|contradiction]].
    + split; [exact Q1|]. split; [|split].
      * intros d. cbn [wanted]. destruct (Nat.eqb_spec d b) as [->|N]; [rewrite Q3; cbn [entr exit_ look]; rewrite R1, R2; reflexivity|now apply Q2].
      * intros l O A. apply Q4. destruct (owned_split s b i l Bi O) as [H|H]; [|auto]. exfalso. apply A. cbn [hp]. rewrite T2', T1' by (intros ->; contradiction). now apply C1.
      * intros l A NO NO'. cbn [hp]. apply R3; [intros H; apply NO; exists b, i; auto|intros ->; apply NO'; apply Q4; left; left; reflexivity|intros ->; apply NO'; apply Q4; left; right; reflexivity].
  - destruct P as (B & (l1 & -> & A1 & O1)). destruct (bend_of s b) as [i|] eqn:Bi; [|contradiction]. cbn [step]. unfold on_bend. rewrite Bi. unfold set_one.
    destruct (clear_ok (hp s) i) as (h1 & -> & C1 & C2); [intros l H; exact (S1 b i l Bi H)|]. cbn [bind].
    assert (N1 : ~ holds i l1) by (intros H; apply O1; exists b, i; auto).
    destruct (type_ok h1 l1 1) as (h2 & -> & T1 & T1'); [rewrite C2 by exact N1; exact A1|]. cbn [bind].
    assert (A1' : face_at h2 l1 <> None) by (rewrite T1, C2 by exact N1; unfold alive in A1; destruct (face_at (hp s) l1); [discriminate|contradiction]).
    destruct (type_ok h2 l1 0 A1') as (h3 & -> & T2 & T2'). cbn [bind fst snd].
    assert (R1 : face_at h3 l1 = option_map (typed 0) (face_at (hp s) l1)) by (rewrite T2, T1, C2 by auto; destruct (face_at (hp s) l1); reflexivity).
    assert (R3 : forall l, ~ holds i l -> l <> l1 -> face_at h3 l = face_at (hp s) l) by (intros l X1 X2; rewrite T2', T1', C2 by auto; reflexivity).
    assert (EO : forall l, elsewhere s b l -> owned s l) by (intros l (c & k & _ & E & H); exists c, k; auto).
    eexists. split; [reflexivity|]. destruct (update s b i (mkI (Some l1) (Some l1)) h3 S Bi) as (Q1 & Q2 & Q3 & Q4).
    + intros l E. apply R3; [intros H; exact (not_elsewhere s b i l S Bi H E)|intros ->; apply O1; auto].
    + intros l [H|H]; cbn in H; injection H as <-; (split; [|auto]); (rewrite R1; unfold alive in A1; destruct (face_at (hp s) l1); [discriminate|contradiction]).
    + split; [exact Q1|]. split; [|split].
      * intros d. cbn [wanted]. destruct (Nat.eqb_spec d b) as [->|N]; [rewrite Q3; cbn [entr exit_ look]; rewrite R1; reflexivity|now apply Q2].
      * intros l O A. apply Q4. destruct (owned_split s b i l Bi O) as [H|H]; [|auto]. exfalso. apply A. cbn [hp]. rewrite T2', T1' by (intros ->; contradiction). now apply C1.
      * intros l A NO NO'. cbn [hp]. apply R3; [intros H; apply NO; exists b, i; auto|intros ->; apply NO'; apply Q4; left; left; reflexivity].
  - destruct (bend_of s b) as [i|] eqn:Bi; [|contradiction]. cbn [step]. rewrite Bi. destruct (copy_ok (hp s) i) as (h' & j & -> & L1 & L2 & K & J & O); [intros l H; exact (S1 b i l Bi H)|]. cbn [bind fst snd].
    assert (AL : forall l, alive s l -> (l < length (hp s))%nat) by (intros l A; unfold alive in A; destruct (face_at (hp s) l) eqn:E; [now apply face_at_lt in E|contradiction]).
    eexists. split; [reflexivity|]. destruct (added s j h' S) as (Q1 & Q2 & Q3 & Q4).
    + intros l A. apply K. now apply AL.
    + intros l H. destruct (J l H) as [G1 G2]. split; [exact G2|]. intros (c & k & E & Hk). pose proof (AL l (S1 c k l E Hk)). lia.
    + split; [exact Q1|]. split; [|split].
      * intros d. cbn [wanted]. destruct (Nat.eqb_spec d (length (bends s))) as [->|N]; [rewrite Q3, shown_look, Bi, L1, L2; reflexivity|now apply Q2].
      * intros l O' _. apply Q4. auto.
      * intros l A _ _. cbn [hp]. apply K. now apply AL.
  - destruct P as (B & C & NE). destruct (bend_of s b) as [i|] eqn:Bi; [|contradiction]. destruct (bend_of s c) as [j0|] eqn:Bj; [|contradiction]. cbn [step]. unfold on_bend. rewrite Bj, Bi. unfold assign.
    destruct (clear_ok (hp s) i) as (h1 & E1 & C1 & C2); [intros l H; exact (S1 b i l Bi H)|]. rewrite E1. cbn [bind].
    assert (NJ : forall l, holds j0 l -> ~ holds i l) by (intros l H H'; apply NE; eapply S2; eassumption).
    destruct (copy_ok h1 j0) as (h' & j & -> & L1 & L2 & K & J & O); [intros l H; rewrite C2 by (apply NJ; exact H); exact (S1 c j0 l Bj H)|]. cbn [bind fst snd].
    assert (AL : forall l, face_at h1 l <> None -> (l < length h1)%nat) by (intros l A; destruct (face_at h1 l) eqn:E; [now apply face_at_lt in E|contradiction]).
    assert (EW : forall l, elsewhere s b l -> ~ holds i l /\ face_at h1 l <> None).
    { intros l E. assert (NH : ~ holds i l) by (intros H; exact (not_elsewhere s b i l S Bi H E)). split; [exact NH|]. rewrite C2 by exact NH. destruct E as (d & k & _ & E & H). exact (S1 d k l E H). }
    eexists. split; [reflexivity|]. destruct (update s b i j h' S Bi) as (Q1 & Q2 & Q3 & Q4).
    + intros l E. destruct (EW l E) as [X1 X2]. rewrite K by (apply AL; exact X2). now apply C2.
    + intros l H. destruct (J l H) as [G1 G2]. split; [exact G2|]. intros E. destruct (EW l E) as [_ X]. apply AL in X. lia.
    + assert (LK : forall e, (e = entr j0 \/ e = exit_ j0) -> look h1 e = look (hp s) e) by (intros [l|] Q; [|reflexivity]; cbn [look]; apply C2; apply NJ; unfold holds; destruct Q as [<-|<-]; auto).
      split; [exact Q1|]. split; [|split].
      * intros d. cbn [wanted]. destruct (Nat.eqb_spec d b) as [->|N]; [rewrite Q3, shown_look, Bj, L1, L2, !LK by auto; reflexivity|now apply Q2].
      * intros l O' A. apply Q4. destruct (owned_split s b i l Bi O') as [H|H]; [|auto]. left. unfold alive in A. cbn [hp] in A. apply O; [|exact A].
        destruct (Nat.lt_ge_cases l (length h1)) as [G|G]; [|exact G]. exfalso. apply A. rewrite K by exact G. now apply C1.
      * intros l A NO _. cbn [hp]. assert (NH : ~ holds i l) by (intros H; apply NO; exists b, i; auto). rewrite K by (apply AL; rewrite C2 by exact NH; exact A). now apply C2.
  - destruct (bend_of s b) as [i|] eqn:Bi; [|contradiction]. cbn [step]. unfold on_bend. rewrite Bi. cbn [bind fst snd]. eexists. split; [reflexivity|].
    destruct (update s b i (mkI (exit_ i) (entr i)) (hp s) S Bi) as (Q1 & Q2 & Q3 & Q4); [reflexivity| |].
    + intros l H. assert (H' : holds i l) by (unfold holds in *; cbn in H; tauto). split; [exact (S1 b i l Bi H')|exact (not_elsewhere s b i l S Bi H')].
    + split; [exact Q1|]. split; [|split].
      * intros d. cbn [wanted]. destruct (Nat.eqb_spec d b) as [->|N]; [rewrite Q3, shown_look, Bi; reflexivity|now apply Q2].
      * intros l O _. apply Q4. destruct (owned_split s b i l Bi O) as [H|H]; [left; unfold holds in *; cbn; tauto|auto].
      * reflexivity.
  - destruct (bend_of s b) as [i|] eqn:Bi; [|contradiction]. cbn [step]. rewrite Bi. destruct (clear_ok (hp s) i) as (h1 & -> & C1 & C2); [intros l H; exact (S1 b i l Bi H)|]. cbn [bind]. eexists. split; [reflexivity|].
    destruct (removed s b i h1 S Bi) as (Q1 & Q2 & Q3 & Q4); [intros l E; apply C2; intros H; exact (not_elsewhere s b i l S Bi H E)|]. split; [exact Q1|]. split; [|split].
    + intros d. cbn [wanted]. destruct (Nat.eqb_spec d b) as [->|N]; [exact Q3|now apply Q2].
    + intros l O A. apply Q4. destruct (owned_split s b i l Bi O) as [H|H]; [|auto]. exfalso. apply A. cbn [hp]. now apply C1.
    + intros l A NO _. cbn [hp]. apply C2. intros H. apply NO. exists b, i. auto.
Qed.
Print Assumptions C206_step.
(* whole programs: what was freed stays free *)
Definition grows (h h' : heap) : Prop := (length h <= length h')%nat /\ forall k, (k < length h)%nat -> face_at h k = None -> face_at h' k = None.
Lemma grows_refl h : grows h h.
Proof. split; auto. Qed.
Lemma grows_trans a b c : grows a b -> grows b c -> grows a c.
Proof. intros [A1 A2] [B1 B2]. split; [lia|]. intros k L F. apply B2; [lia|]. now apply A2. Qed.
Lemma grows_write h l c : face_at h l <> None -> grows h (write h l c).
Proof. intros A. split; [rewrite length_write; lia|]. intros k _ F. rewrite face_write by exact A. destruct (Nat.eqb_spec k l) as [->|]; [contradiction|exact F]. Qed.
Lemma grows_app h f : grows h (h ++ [Some f]).
Proof. split; [rewrite app_length; lia|]. intros k L F. rewrite face_app. destruct (Nat.eqb_spec k (length h)); [lia|exact F]. Qed.
Lemma grows_clear h i h' : clear h i = Ok h' -> grows h h'.
Proof.
  unfold clear, free. destruct (entr i) as [a|].
  - destruct (face_at h a) eqn:E; [|discriminate]. cbn [bind]. assert (G : grows h (write h a None)) by (apply grows_write; rewrite E; discriminate). destruct (exit_ i) as [b|]; [|intros Q; injection Q as <-; exact G]. destruct (same_ptr _ _); [intros Q; injection Q as <-; exact G|].
    destruct (face_at (write h a None) b) eqn:E'; [|discriminate]. intros Q. injection Q as <-. eapply grows_trans; [exact G|]. apply grows_write. rewrite E'. discriminate.
  - cbn [bind]. destruct (exit_ i) as [b|]; [|intros Q; injection Q as <-; apply grows_refl]. destruct (same_ptr _ _); [intros Q; injection Q as <-; apply grows_refl|]. destruct (face_at h b) eqn:E; [|discriminate]. intros Q. injection Q as <-. apply grows_write. rewrite E. discriminate.
Qed.
Lemma grows_type h e t h' : set_type h e t = Ok h' -> grows h h'.
Proof. unfold set_type. destruct e as [l|]; [|discriminate]. destruct (face_at h l) eqn:E; [|discriminate]. intros Q. injection Q as <-. apply grows_write. rewrite E. discriminate. Qed.
Lemma grows_clone h e r : clone h e = Ok r -> grows h (fst r).
Proof. unfold clone. destruct e as [l|]; [|intros Q; injection Q as <-; apply grows_refl]. destruct (face_at h l); [|discriminate]. intros Q. injection Q as <-. apply grows_app. Qed.
Lemma grows_copy h i r : copy_info h i = Ok r -> grows h (fst r).
Proof.
  unfold copy_info. destruct (clone h (entr i)) as [a| |] eqn:A; try discriminate. cbn [bind]. apply grows_clone in A. destruct (same_ptr _ _); [intros Q; injection Q as <-; exact A|].
  destruct (clone (fst a) (exit_ i)) as [b| |] eqn:B; try discriminate. cbn [bind]. apply grows_clone in B. intros Q. injection Q as <-. eapply grows_trans; eassumption.
Qed.
Lemma grows_step s o s' : step s o = Ok s' -> grows (hp s) (hp s').
Proof.
  destruct o as [f| |b e1 e2|b e|b|b c|b|b]; cbn [step]; unfold on_bend.
  - intros Q. injection Q as <-. apply grows_app.
  - intros Q. injection Q as <-. apply grows_refl.
  - destruct (bend_of s b) as [i|]; [|discriminate]. unfold set_both. destruct (clear (hp s) i) as [h1| |] eqn:C; try discriminate. cbn [bind]. destruct (set_type h1 e1 1) as [h2| |] eqn:T1; try discriminate. cbn [bind]. destruct (set_type h2 e2 0) as [h3| |] eqn:T2; try discriminate. cbn [bind fst snd]. intros Q. injection Q as <-.
    eapply grows_trans; [eapply grows_clear; exact C|]. eapply grows_trans; eapply grows_type; eassumption.
  - destruct (bend_of s b) as [i|]; [|discriminate]. unfold set_one. destruct (clear (hp s) i) as [h1| |] eqn:C; try discriminate. cbn [bind]. destruct (set_type h1 e 1) as [h2| |] eqn:T1; try discriminate. cbn [bind]. destruct (set_type h2 e 0) as [h3| |] eqn:T2; try discriminate. cbn [bind fst snd]. intros Q. injection Q as <-.
    eapply grows_trans; [eapply grows_clear; exact C|]. eapply grows_trans; eapply grows_type; eassumption.
  - destruct (bend_of s b) as [i|]; [|discriminate]. destruct (copy_info (hp s) i) as [r| |] eqn:C; try discriminate. cbn [bind]. intros Q. injection Q as <-. now apply grows_copy in C.
  - destruct (bend_of s c) as [j|]; [|discriminate]. destruct (bend_of s b) as [i|]; [|discriminate]. unfold assign. destruct (clear (hp s) i) as [h1| |] eqn:C; try discriminate. cbn [bind]. destruct (copy_info h1 j) as [r| |] eqn:C2; try discriminate. cbn [bind fst snd]. intros Q. injection Q as <-.
    eapply grows_trans; [eapply grows_clear; exact C|]. now apply grows_copy in C2.
  - destruct (bend_of s b) as [i|]; [|discriminate]. cbn [bind fst snd]. intros Q. injection Q as <-. apply grows_refl.
  - destruct (bend_of s b) as [i|]; [|discriminate]. destruct (clear (hp s) i) as [h1| |] eqn:C; try discriminate. cbn [bind]. intros Q. injection Q as <-. eapply grows_clear; exact C.
Qed.
Lemma grows_run l s s' : run s l = Ok s' -> grows (hp s) (hp s').
Proof. revert s. induction l as [|o l IH]; intros s; cbn [run]; [intros Q; injection Q as <-; apply grows_refl|]. destruct (step s o) as [s1| |] eqn:E; try discriminate. cbn [bind]. intros R. eapply grows_trans; [eapply grows_step; exact E|now apply IH]. Qed.
(* no run of such a program is undefined, and with its last bend all faces it ever gave to a
   bend are gone *)
Theorem C206_run l s : sound s -> proper_run s l -> exists s', run s l = Ok s' /\ sound s' /\ (forall k, owned s k -> alive s' k -> owned s' k) /\ ((forall b, bend_of s' b = None) -> forall k, owned s k -> ~ alive s' k).
Proof.
  intros S P. assert (G : exists s', run s l = Ok s' /\ sound s' /\ forall k, owned s k -> alive s' k -> owned s' k).
  { revert s S P. induction l as [|o l IH]; intros s S P; [exists s; split; [reflexivity|]; split; [exact S|auto]|]. destruct P as [P R]. destruct (C206_step s o S P) as (s1 & E & S' & _ & O & _).
    destruct (IH s1 S' (R s1 E)) as (s2 & E2 & S2 & O2). exists s2. cbn [run]. rewrite E. split; [exact E2|]. split; [exact S2|]. intros k K A. apply O2; [|exact A].
    destruct (face_at (hp s1) k) as [f|] eqn:F; [apply O; [exact K|unfold alive; rewrite F; discriminate]|]. exfalso. apply A. apply grows_run in E2. apply grows_step in E.
    assert (L : (k < length (hp s))%nat). { destruct K as (b & i & B & H). pose proof (proj1 S b i k B H) as AL. unfold alive in AL. destruct (face_at (hp s) k) eqn:Q; [now apply face_at_lt in Q|contradiction]. }
    apply (proj2 E2); [|exact F]. destruct E as [E _]. lia. }
  destruct G as (s' & E & S' & O). exists s'. split; [exact E|]. split; [exact S'|]. split; [exact O|]. intros N k K A. destruct (O k K A) as (b & i & B & _). rewrite N in B. discriminate.
Qed.
Print Assumptions C206_run.
Theorem C206_start : sound (mkSt [] []).
Proof. split; [intros b i l B|intros b c i j l B]; destruct b; discriminate. Qed.
Print Assumptions C206_start.
Example C206_ex : let p := mkPF (mkFace 1 2 3) 1 in let q := mkPF (mkFace 4 5 6) 1 in
  let prog := [NewFace p; NewFace q; NewBend; SetBoth 0 (Some 0%nat) (Some 1%nat); CopyBend 0; Destroy 0; Rotate 1] in
  exists s, run (mkSt [] []) prog = Ok s /\ shown s 1 = Some (Some (mkPF (mkFace 4 5 6) 0), Some (mkPF (mkFace 1 2 3) 1)) /\ shown s 0 = None /\ hp s = [None; None; Some (mkPF (mkFace 1 2 3) 1); Some (mkPF (mkFace 4 5 6) 0)].
Proof. cbv zeta. eexists. split; [reflexivity|]. repeat split. Qed.
Example C206_proper_ex : let p := mkPF (mkFace 1 2 3) 1 in let q := mkPF (mkFace 4 5 6) 1 in proper_run (mkSt [] []) [NewFace p; NewFace q; NewBend; SetBoth 0 (Some 0%nat) (Some 1%nat); CopyBend 0].
Proof.
  cbv zeta. cbn [proper_run proper]. split; [exact I|]. intros s1 E1. injection E1 as <-. split; [exact I|]. intros s2 E2. injection E2 as <-. split; [exact I|]. intros s3 E3. injection E3 as <-.
  assert (NO : forall l, ~ owned (mkSt [Some (mkPF (mkFace 1 2 3) 1); Some (mkPF (mkFace 4 5 6) 1)] [Some (mkI None None)]) l). { intros l (b & i & B & H). destruct b as [|[|b]]; [|discriminate|discriminate]. injection B as <-. destruct H; discriminate. }
  split; [split; [discriminate|]; split; [exists 0%nat; split; [reflexivity|]; split; [discriminate|apply NO]|]; split; [exists 1%nat; split; [reflexivity|]; split; [discriminate|apply NO]|discriminate]|].
  intros s4 E4. injection E4 as <-. split; [discriminate|]. auto.
Qed.

(* ---- C207: not every use that the interface allows ---- *)
(* one face for both ends: the entrance is a face of the type of an exit *)
Theorem C207_one_face_refuted s b e f : sound s -> bend_of s b <> None -> to_give s (Some e) -> face_at (hp s) e = Some f -> exists s' g, step s (SetOne b (Some e)) = Ok s' /\ shown s' b = Some (Some g, Some g) /\ pf_face g = pf_face f /\ pf_type g = 0%R.
Proof.
  intros S B G F. destruct (C206_step s (SetOne b (Some e)) S (conj B G)) as (s' & E & _ & W & _). exists s', (typed 0 f). split; [exact E|]. rewrite W. cbn [wanted]. rewrite Nat.eqb_refl, F. repeat split.
Qed.
Print Assumptions C207_one_face_refuted.
(* turning a bend around swaps its faces but not their types *)
Theorem C207_rotate_refuted s b l1 l2 f1 f2 : sound s -> bend_of s b <> None -> to_give s (Some l1) -> to_give s (Some l2) -> l1 <> l2 -> face_at (hp s) l1 = Some f1 -> face_at (hp s) l2 = Some f2 ->
  exists s' g1 g2, run s [SetBoth b (Some l1) (Some l2); Rotate b] = Ok s' /\ shown s' b = Some (Some g1, Some g2) /\ pf_face g1 = pf_face f2 /\ pf_face g2 = pf_face f1 /\ pf_type g1 = 0%R /\ pf_type g2 = 1%R.
Proof.
  intros S B G1 G2 N F1 F2. assert (P : proper s (SetBoth b (Some l1) (Some l2))) by (split; [exact B|]; split; [exact G1|]; split; [exact G2|congruence]).
  destruct (C206_step s _ S P) as (s1 & E1 & S1 & W1 & _). specialize (W1 b). cbn [wanted] in W1. rewrite Nat.eqb_refl, F1, F2 in W1. cbn [option_map] in W1.
  assert (P2 : proper s1 (Rotate b)) by (cbn [proper]; rewrite shown_look in W1; destruct (bend_of s1 b); [discriminate|discriminate W1]).
  destruct (C206_step s1 _ S1 P2) as (s2 & E2 & _ & W2 & _). specialize (W2 b). cbn [wanted] in W2. rewrite Nat.eqb_refl, W1 in W2. cbn [option_map fst snd] in W2.
  exists s2, (typed 0 f2), (typed 1 f1). cbn [run]. rewrite E1. cbn [bind]. rewrite E2. split; [reflexivity|]. split; [exact W2|]. repeat split.
Qed.
Print Assumptions C207_rotate_refuted.
(* a bend with a face at one end only, a bend assigned to itself, faces set again *)
Theorem C207_null_refuted s b e : step s (SetBoth b None e) = UB /\ (sound s -> step s (SetBoth b e None) = UB) /\ (sound s -> step s (SetOne b None) = UB).
Proof.
  cbn [step]. unfold on_bend. destruct (bend_of s b) as [i|] eqn:B; [|auto]. unfold set_both, set_one. cbn [set_type].
  assert (NT : forall h, (exists h1, clear h i = Ok h1) \/ clear h i = UB).
  { intros h. unfold clear, free. destruct (entr i) as [x|]; [destruct (face_at h x); [|auto]|]; cbn [bind]; (destruct (exit_ i) as [y|]; [destruct (same_ptr _ _); [eauto|]; match goal with |- context [face_at ?H y] => destruct (face_at H y) end; eauto|eauto]). }
  split; [|split].
  - destruct (NT (hp s)) as [(h1 & ->)| ->]; reflexivity.
  - intros _. destruct (NT (hp s)) as [(h1 & ->)| ->]; [|reflexivity]. cbn [bind]. destruct (set_type h1 e 1) as [h2|[]|] eqn:E; cbn [bind]; try reflexivity. exfalso. unfold set_type in E. destruct e as [l|]; [destruct (face_at h1 l)|]; discriminate.
  - intros _. destruct (NT (hp s)) as [(h1 & ->)| ->]; reflexivity.
Qed.
Print Assumptions C207_null_refuted.
Theorem C207_self_refuted s b i : sound s -> bend_of s b = Some i -> (exists l, holds i l) -> step s (AssignBend b b) = UB /\ step s (SetBoth b (entr i) (exit_ i)) = UB /\ step s (SetOne b (entr i)) = UB.
Proof.
  intros [S1 S2] B (l & H). cbn [step]. unfold on_bend. rewrite B. unfold assign, set_both, set_one. destruct (clear_ok (hp s) i) as (h1 & -> & C1 & C2); [intros k K; exact (S1 b i k B K)|]. cbn [bind].
  assert (X1 : forall k, entr i = Some k -> face_at h1 k = None) by (intros k K; apply C1; left; exact K). assert (X2 : forall k, exit_ i = Some k -> face_at h1 k = None) by (intros k K; apply C1; right; exact K).
  unfold copy_info, clone, set_type. destruct (entr i) as [a|] eqn:EA.
  - rewrite (X1 a eq_refl). repeat split.
  - cbn [bind fst snd same_ptr]. destruct (exit_ i) as [c|] eqn:EX; [|destruct H as [H|H]; [rewrite EA in H|rewrite EX in H]; discriminate]. rewrite (X2 c eq_refl). repeat split.
Qed.
Print Assumptions C207_self_refuted.
