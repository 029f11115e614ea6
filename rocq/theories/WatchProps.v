(* C391-C402: checks for finite coordinates, monitors, errors of frames. *)
From Coq Require Import ZArith Lia Lra List Ascii String DecimalString DecimalNat.
From Verif Require Import RBase Base StringPattern Lattice Watch WatchSpec.
Import ListNotations.
Local Open Scope R_scope.

Lemma good_bad p : is_good p = true <-> ~ bad p.
Proof.
  destruct p as [x xp y yp ct dp id]. unfold is_good, bad. cbn [w_x w_xp w_y w_yp w_ct w_dp In].
  destruct x, xp, y, yp, ct, dp; cbn [finite andb]; split; intros H; try discriminate; try reflexivity; intuition discriminate.
Qed.
Lemma bad_not p : is_good p = false <-> bad p.
Proof.
  destruct p as [x xp y yp ct dp id]. unfold is_good, bad. cbn [w_x w_xp w_y w_yp w_ct w_dp In].
  destruct x, xp, y, yp, ct, dp; cbn [finite andb]; split; intros H; try discriminate; try reflexivity; intuition discriminate.
Qed.
Lemma seen_In i l : existsb (Z.eqb i) l = true <-> In i l.
Proof. rewrite existsb_exists. split; [intros (j & I & E); apply Z.eqb_eq in E; now subst|]. intros I. exists i. split; [exact I|apply Z.eqb_refl]. Qed.
Lemma seen_not i l : existsb (Z.eqb i) l = false <-> ~ In i l.
Proof. rewrite <- seen_In. destruct (existsb (Z.eqb i) l); split; congruence. Qed.
Lemma founds_app l m : founds (l ++ m) = (founds l ++ founds m)%list.
Proof. induction l as [|x l IH]; cbn [founds app]; [reflexivity|]. destruct x; cbn [app]; now rewrite ?IH. Qed.
Lemma report_lines c b id r : report c b id = Some r -> forall k i nm, ~ In (LFound k i nm) r.
Proof.
  unfold report. destruct (find_id (to_int id) b) as [p|]; destruct (c_detailed c); try discriminate.
  - destruct (find_id (to_int id) (c_start c)) as [s|]; [|discriminate]. intros [= <-] k i nm. rewrite in_app_iff. destruct (find_id (to_int id) (c_prev c)); cbn [In]; intuition discriminate.
  - intros [= <-] k i nm. cbn [In]. intuition discriminate.
  - destruct (find_id (to_int id) (c_start c)); discriminate.
Qed.
Lemma lines_founds r : (forall k i nm, ~ In (LFound k i nm) r) -> founds r = [].
Proof. induction r as [|x r IH]; intros H; [reflexivity|]. cbn [founds]. destruct x; try (apply IH; intros k i nm I; apply (H k i nm); now right). exfalso. eapply H. now left. Qed.
Definition unrep (c : chk) (q : wpart) : bool := negb (existsb (Z.eqb (w_id q)) (c_reported c)).
Lemma loop_ok name all : forall l count doc c out c' all' out' doc', check_loop name all l count doc c out = (WRun c' all' out', doc') ->
  all' = all /\ exists new, out' = (out ++ new)%list /\
    c' = mkChk (c_detailed c) (c_cull c) (c_halt c) (c_prev c) (c_start c) (rev (founds new) ++ c_reported c)%list /\
    NoDup (founds new) /\ (forall i, In i (founds new) -> ~ In i (c_reported c) /\ exists p, In p l /\ bad p /\ w_id p = i) /\
    (forall p, In p l -> bad p -> In (w_id p) (founds new) \/ In (w_id p) (c_reported c)) /\
    doc' = orb doc (andb (c_cull c) (match founds new with [] => false | _ => true end)) /\ (c_halt c = true -> new = []) /\
    (forall k i nm, In (LFound k i nm) new -> nm = name /\ exists l1 p l2, l = (l1 ++ p :: l2)%list /\ w_id p = i /\ bad p /\ (NoDup (map w_id l) -> k = (count + length (filter (unrep c) l1))%nat)).
Proof.
  induction l as [|p l IH]; intros count doc c out c' all' out' doc' E; cbn [check_loop] in E.
  - injection E as <- <- <- <-. split; [reflexivity|]. exists []. cbn [founds rev app]. rewrite app_nil_r, Bool.andb_false_r, Bool.orb_false_r. destruct c. do 2 (split; [reflexivity|]). split; [constructor|]. split; [intros i []|]. split; [intros q []|]. do 2 (split; [reflexivity|]). intros k i nm [].
  - destruct (existsb (Z.eqb (w_id p)) (c_reported c)) eqn:SE.
    + destruct (IH _ _ _ _ _ _ _ _ E) as (A & new & B1 & B2 & B3 & B4 & B5 & B6 & B7 & B8). split; [exact A|]. exists new. do 3 (split; [assumption|]). split; [|split; [|split; [assumption|split; [assumption|]]]].
      * intros i I. destruct (B4 i I) as (C & q & Q & D). split; [exact C|]. exists q. split; [now right|exact D].
      * intros q [<-|Q] D; [right; now apply seen_In|now apply B5].
      * intros k i nm I. destruct (B8 k i nm I) as (N & l1 & q & l2 & L & W & BD & K). split; [exact N|]. exists (p :: l1), q, l2. split; [now rewrite L|]. do 2 (split; [assumption|]). intros ND. cbn [map] in ND. rewrite K by now inversion ND. cbn [filter]. unfold unrep at 2. now rewrite SE.
    + destruct (is_good p) eqn:G.
      * destruct (IH _ _ _ _ _ _ _ _ E) as (A & new & B1 & B2 & B3 & B4 & B5 & B6 & B7 & B8). split; [exact A|]. exists new. do 3 (split; [assumption|]). split; [|split; [|split; [assumption|split; [assumption|]]]].
        -- intros i I. destruct (B4 i I) as (C & q & Q & D). split; [exact C|]. exists q. split; [now right|exact D].
        -- intros q [<-|Q] D; [exfalso; apply good_bad in G; contradiction|now apply B5].
        -- intros k i nm I. destruct (B8 k i nm I) as (N & l1 & q & l2 & L & W & BD & K). split; [exact N|]. exists (p :: l1), q, l2. split; [now rewrite L|]. do 2 (split; [assumption|]). intros ND. cbn [map] in ND. rewrite K by now inversion ND. cbn [filter]. unfold unrep at 2. rewrite SE. cbn [negb length]. lia.
      * destruct (report c all (w_id p)) as [r|] eqn:RP; [|discriminate]. cbv zeta in E. destruct (c_halt c) eqn:HL; [discriminate|].
        destruct (IH _ _ _ _ _ _ _ _ E) as (A & new & B1 & B2 & B3 & B4 & B5 & B6 & B7 & B8). split; [exact A|].
        assert (FR : founds r = []) by (apply lines_founds; exact (report_lines _ _ _ _ RP)).
        exists (LFound count (w_id p) name :: r ++ new)%list. cbn [founds]. rewrite founds_app, FR. cbn [app rev]. unfold add_reported in *. cbn [c_detailed c_cull c_halt c_prev c_start c_reported] in *.
        split; [rewrite B1, <- app_assoc; reflexivity|]. split; [rewrite B2, <- app_assoc; cbn [app]; rewrite ?HL; reflexivity|]. apply seen_not in SE. split.
        { constructor; [|exact B3]. intros I. destruct (B4 _ I) as (C & _). apply C. now left. } split.
        { intros i [<-|I].
          - split; [exact SE|]. exists p. split; [now left|]. split; [now apply bad_not|reflexivity].
          - destruct (B4 i I) as (C & q & Q & D). split; [intros X; apply C; now right|]. exists q. split; [now right|exact D]. } split.
        { intros q [<-|Q] D; [left; now left|]. destruct (B5 q Q D) as [X|[X|X]]; [left; now right|left; left; exact X|now right]. } split.
        { rewrite B6. destruct (c_cull c), doc; cbn [andb orb]; now rewrite ?Bool.orb_true_r. } split; [congruence|].
        intros k i nm [H|H].
        { injection H as <- <- <-. split; [reflexivity|]. exists [], p, l. split; [reflexivity|]. split; [reflexivity|]. split; [now apply bad_not|]. intros _. cbn [filter length]. lia. }
        apply in_app_or in H. destruct H as [H|H]; [exfalso; exact (report_lines _ _ _ _ RP k i nm H)|].
        destruct (B8 k i nm H) as (N & l1 & q & l2 & L & W & BD & K). split; [exact N|]. exists (p :: l1), q, l2. split; [now rewrite L|]. do 2 (split; [assumption|]). intros ND. cbn [map] in ND. rewrite K by now inversion ND. cbn [filter]. unfold unrep at 2. rewrite (proj2 (seen_not _ _) SE). cbn [negb length].
        assert (EX : forall m, (forall x, In x m -> w_id x <> w_id p) -> filter (unrep (mkChk (c_detailed c) (c_cull c) (c_halt c) (c_prev c) (c_start c) (w_id p :: c_reported c))) m = filter (unrep c) m).
        { induction m as [|x m IHm]; intros HX; [reflexivity|]. cbn [filter]. rewrite (IHm (fun y Y => HX y (or_intror Y))). unfold unrep. cbn [c_reported existsb]. rewrite (proj2 (Z.eqb_neq (w_id x) (w_id p)) (HX x (or_introl eq_refl))). reflexivity. }
        rewrite HL in EX. rewrite EX; [lia|]. intros x X EQ. inversion ND as [|? ? NI _]; subst. apply NI. rewrite <- EQ. apply in_map. apply in_or_app. now left.
Qed.
Lemma check_run name c b c' b' out : do_check name c b = WRun c' b' out -> exists doc, check_loop name b b 0 false c [] = (WRun c' b out, doc) /\ b' = if doc then filter is_good b else b.
Proof.
  unfold do_check. destruct (check_loop name b b 0 false c []) as ([d l o|o|] & doc) eqn:E; try (destruct doc; discriminate). destruct (loop_ok _ _ _ _ _ _ _ _ _ _ _ E) as (-> & _). destruct doc; intros [= <- <- <-]; eexists; split; reflexivity.
Qed.
(* C391: each bad particle is reported when first found, and never again *)
Theorem C391_reported : forall name c b c' b' out, do_check name c b = WRun c' b' out ->
  (forall i, In i (c_reported c') <-> In i (c_reported c) \/ exists p, In p b /\ bad p /\ w_id p = i) /\
  (forall i, In i (founds out) <-> In i (c_reported c') /\ ~ In i (c_reported c)) /\ NoDup (founds out) /\
  c_detailed c' = c_detailed c /\ c_cull c' = c_cull c /\ c_halt c' = c_halt c /\ c_prev c' = c_prev c /\ c_start c' = c_start c.
Proof.
  intros name c b c' b' out E. apply check_run in E. destruct E as (doc & E & _). destruct (loop_ok _ _ _ _ _ _ _ _ _ _ _ E) as (_ & new & -> & -> & ND & F & G & _). cbn [app c_detailed c_cull c_halt c_prev c_start c_reported]. split; [|split; [|split; [exact ND|repeat split]]].
  - intros i. rewrite in_app_iff, <- in_rev. split.
    + intros [I|I]; [right; now apply F|now left].
    + intros [I|(p & P & B & <-)]; [now right|]. destruct (G p P B); auto.
  - intros i. rewrite in_app_iff, <- in_rev. split; [intros I; split; [now left|now apply F]|]. tauto.
Qed.
Print Assumptions C391_reported.
Theorem C391_once : forall l c d out, history l c = Some (d, out) -> NoDup (founds out) /\ (forall i, In i (founds out) -> ~ In i (c_reported c) /\ In i (c_reported d)) /\ incl (c_reported c) (c_reported d).
Proof.
  induction l as [|o l IH]; intros c d out E; cbn [history] in E.
  - injection E as <- <-. split; [constructor|]. split; [intros i []|apply incl_refl].
  - destruct o as [name b|b|v|v|v]; try (destruct (IH _ _ _ E) as (A & B & C); split; [exact A|split; [exact B|exact C]]).
    + destruct (do_check name c b) as [c' b' o1| |] eqn:D; try discriminate. destruct (history l c') as [(d' & o2)|] eqn:H; [|discriminate]. injection E as <- <-. destruct (IH _ _ _ H) as (A & B & C). destruct (C391_reported _ _ _ _ _ _ D) as (R1 & R2 & R3 & _). rewrite founds_app. split; [|split].
      * revert R3 R2. generalize (founds o1). intros f1 R3 R2. assert (X : forall i, In i f1 -> ~ In i (founds o2)) by (intros i I J; apply (B i J); now apply R2). clear -R3 A X. induction f1 as [|x f1 IH]; cbn [app]; [exact A|]. inversion R3; subst. constructor; [|apply IH; [assumption|intros i I; apply X; now right]]. rewrite in_app_iff. intros [I|I]; [contradiction|]. apply (X x); [now left|exact I].
      * intros i I. apply in_app_or in I. destruct I as [I|I].
        -- apply R2 in I. split; [tauto|]. now apply C.
        -- destruct (B i I) as (N & Y). split; [|exact Y]. intros Z. apply N, R1. now left.
      * intros i I. apply C, R1. now left.
    + assert (RS : c_reported (set_component b c) = c_reported c) by (unfold set_component; now destruct (c_detailed c)). destruct (IH _ _ _ E) as (A & B & C). rewrite RS in *. auto.
Qed.
Print Assumptions C391_once.
(* C392: the index printed is the number of earlier particles not reported before the check, which is not the position *)
Theorem C392_index : forall name c b c' b' out k i nm, do_check name c b = WRun c' b' out -> NoDup (map w_id b) -> In (LFound k i nm) out ->
  nm = name /\ exists l1 p l2, b = (l1 ++ p :: l2)%list /\ w_id p = i /\ bad p /\ k = length (filter (fun q => if in_dec Z.eq_dec (w_id q) (c_reported c) then false else true) l1).
Proof.
  intros name c b c' b' out k i nm E ND I. apply check_run in E. destruct E as (doc & E & _). destruct (loop_ok _ _ _ _ _ _ _ _ _ _ _ E) as (_ & new & -> & _ & _ & _ & _ & _ & _ & F). cbn [app] in I. destruct (F k i nm I) as (N & l1 & p & l2 & L & W & B & K). split; [exact N|]. exists l1, p, l2. do 3 (split; [assumption|]). rewrite (K ND). cbn [Nat.add]. f_equal. apply filter_ext. intros q. unfold unrep. destruct (in_dec Z.eq_dec (w_id q) (c_reported c)) as [J|J]; [now rewrite (proj2 (seen_In _ _) J)|now rewrite (proj2 (seen_not _ _) J)].
Qed.
Print Assumptions C392_index.
Definition okp (i : Z) : wpart := mkW (Some 0) (Some 0) (Some 0) (Some 0) (Some 0) (Some 0) i.
Definition badp (i : Z) : wpart := mkW (Some 0) (Some 0) None (Some 0) (Some 0) (Some 0) i.
Theorem C392_index_refuted : exists c b1 b2 c1 c2 out1 out2, do_check [] c b1 = WRun c1 b1 out1 /\ do_check [] c1 b2 = WRun c2 b2 out2 /\ map w_id b1 = map w_id b2 /\ nth_error b2 1 = Some (badp 8) /\ out2 = [LFound 0 8 []; LCurrent (badp 8)].
Proof. exists new_check, [badp 7; okp 8], [badp 7; badp 8]. do 4 eexists. split; [reflexivity|]. split; [reflexivity|]. repeat split. Qed.
Print Assumptions C392_index_refuted.
(* C393: particles are removed exactly when bad, provided that none was reported before *)
Theorem C393_cull : forall name c b c' b' out, do_check name c b = WRun c' b' out ->
  (c_cull c = false -> b' = b) /\
  (c_cull c = true -> (forall p, In p b -> ~ In (w_id p) (c_reported c)) -> (forall p, In p b' <-> In p b /\ ~ bad p) /\ (forall g, (forall p, g p = true <-> ~ bad p) -> b' = filter g b) /\
     (NoDup (map w_id b) -> forall p, In p b' -> ~ In (w_id p) (c_reported c'))).
Proof.
  intros name c b c' b' out E. destruct (C391_reported _ _ _ _ _ _ E) as (R1 & _). apply check_run in E. destruct E as (doc & E & BE). destruct (loop_ok _ _ _ _ _ _ _ _ _ _ _ E) as (_ & new & -> & CE & ND & F & G & D & _). cbn [orb] in D. split.
  - intros CU. rewrite CU in D. cbn [andb] in D. now subst doc.
  - intros CU NR. rewrite CU in D. cbn [andb] in D.
    assert (BF : b' = filter is_good b).
    { rewrite BE, D. destruct (founds new) eqn:FN; [|reflexivity]. symmetry. assert (AG : forall p, In p b -> is_good p = true). { intros p P. destruct (is_good p) eqn:GP; [reflexivity|]. exfalso. apply bad_not in GP. destruct (G p P GP) as [[]|X]. exact (NR p P X). }
      clear -AG. induction b as [|x b IH]; [reflexivity|]. cbn [filter]. rewrite (AG x (or_introl eq_refl)), IH; [reflexivity|]. intros p P. apply AG. now right. }
    assert (M : forall p, In p b' <-> In p b /\ ~ bad p) by (intros p; rewrite BF, filter_In, good_bad; reflexivity). split; [exact M|]. split.
    + intros g Hg. rewrite BF. apply filter_ext. intros p. specialize (Hg p). pose proof (good_bad p). destruct (is_good p), (g p); intuition congruence.
    + intros NDI p P I. apply M in P. destruct P as (P & NB). apply R1 in I. destruct I as [I|(q & Q & BQ & IQ)]; [exact (NR p P I)|]. assert (q = p); [|now subst]. clear -NDI P Q IQ. induction b as [|x b IH]; [destruct P|]. cbn [map] in NDI. inversion NDI; subst. destruct P as [<-|P], Q as [<-|Q]; [reflexivity| | |now apply IH].
      * exfalso. apply H1. rewrite <- IQ. now apply in_map.
      * exfalso. apply H1. rewrite IQ. now apply in_map.
Qed.
Print Assumptions C393_cull.
Example C393_ex : exists c' out, do_check [] (set_cull true new_check) [okp 1; badp 2; okp 3] = WRun c' [okp 1; okp 3] out /\ founds out = [2%Z] /\ c_reported c' = [2%Z].
Proof. do 2 eexists. repeat split. Qed.
(* C394: bad particles reported before neither are removed nor halt the program *)
Theorem C394_late_refuted : forall name c b, (forall p, In p b -> bad p -> In (w_id p) (c_reported c)) -> do_check name c b = WRun c b [].
Proof.
  intros name c b H. assert (L : forall all l count, (forall p, In p l -> bad p -> In (w_id p) (c_reported c)) -> check_loop name all l count false c [] = (WRun c all [], false)).
  { intros all. induction l as [|p l IH]; intros count HL; cbn [check_loop]; [reflexivity|]. destruct (existsb (Z.eqb (w_id p)) (c_reported c)) eqn:S; [apply IH; intros q Q; apply HL; now right|]. apply seen_not in S. destruct (is_good p) eqn:G; [apply IH; intros q Q; apply HL; now right|]. exfalso. apply S, HL; [now left|now apply bad_not]. }
  unfold do_check. now rewrite L.
Qed.
Print Assumptions C394_late_refuted.
Example C394_ex : exists c' out, do_check [] new_check [badp 7] = WRun c' [badp 7] out /\ do_check [] (set_cull true (set_halt true c')) [badp 7] = WRun (set_cull true (set_halt true c')) [badp 7] [].
Proof. do 2 eexists. split; reflexivity. Qed.
(* C395: halting *)
Theorem C395_halt : forall name c b, c_halt c = true ->
  match do_check name c b with
  | WRun c' b' out => c' = c /\ b' = b /\ out = [] /\ forall p, In p b -> bad p -> In (w_id p) (c_reported c)
  | WAbort out => exists l1 p l2 k r, b = (l1 ++ p :: l2)%list /\ bad p /\ ~ In (w_id p) (c_reported c) /\ (forall q, In q l1 -> bad q -> In (w_id q) (c_reported c)) /\ out = (LFound k (w_id p) name :: r ++ [LHalt])%list /\ founds r = []
  | WUB => exists p, In p b /\ bad p /\ ~ In (w_id p) (c_reported c)
  end.
Proof.
  intros name c b H.
  assert (L : forall all l count, match check_loop name all l count false c [] with
     | (WRun c' b' out, doc) => doc = false /\ c' = c /\ b' = all /\ out = [] /\ forall p, In p l -> bad p -> In (w_id p) (c_reported c)
     | (WAbort out, _) => exists l1 p l2 k r, l = (l1 ++ p :: l2)%list /\ bad p /\ ~ In (w_id p) (c_reported c) /\ (forall q, In q l1 -> bad q -> In (w_id q) (c_reported c)) /\ out = (LFound k (w_id p) name :: r ++ [LHalt])%list /\ founds r = []
     | (WUB, _) => exists p, In p l /\ bad p /\ ~ In (w_id p) (c_reported c) end).
  { intros all. induction l as [|p l IH]; intros count; cbn [check_loop]; [repeat split; auto; intros p []|].
    assert (KEEP : forall n, (bad p -> In (w_id p) (c_reported c)) -> match check_loop name all l n false c [] with
     | (WRun c' b' out, doc) => doc = false /\ c' = c /\ b' = all /\ out = [] /\ forall q, In q (p :: l) -> bad q -> In (w_id q) (c_reported c)
     | (WAbort out, _) => exists l1 q l2 k r, p :: l = (l1 ++ q :: l2)%list /\ bad q /\ ~ In (w_id q) (c_reported c) /\ (forall q, In q l1 -> bad q -> In (w_id q) (c_reported c)) /\ out = (LFound k (w_id q) name :: r ++ [LHalt])%list /\ founds r = []
     | (WUB, _) => exists q, In q (p :: l) /\ bad q /\ ~ In (w_id q) (c_reported c) end).
    { intros n K. specialize (IH n). destruct (check_loop name all l n false c []) as ([c' b' out|out|] & doc).
      - destruct IH as (A & B & C & D & F). do 4 (split; [assumption|]). intros q [<-|Q]; auto.
      - destruct IH as (l1 & q & l2 & k & r & A & B & C & D & F). exists (p :: l1), q, l2, k, r. split; [now rewrite A|]. do 2 (split; [assumption|]). split; [|exact F]. intros x [<-|X]; auto.
      - destruct IH as (q & Q & F). exists q. split; [now right|exact F]. }
    destruct (existsb (Z.eqb (w_id p)) (c_reported c)) eqn:S; [apply KEEP; intros _; now apply seen_In|]. apply seen_not in S. destruct (is_good p) eqn:G; [apply KEEP; intros BP; apply good_bad in G; contradiction|]. apply bad_not in G.
    destruct (report c all (w_id p)) as [r|] eqn:RP; [|exists p; split; [now left|auto]]. cbv zeta. rewrite H. exists [], p, l, count, r. split; [reflexivity|]. do 2 (split; [assumption|]). split; [intros q []|]. split; [reflexivity|]. apply lines_founds. exact (report_lines _ _ _ _ RP). }
  specialize (L b b O). unfold do_check. destruct (check_loop name b b 0 false c []) as ([c' b' out|out|] & doc).
  - destruct L as (-> & A & B & C & D). auto.
  - destruct doc; exact L.
  - destruct doc; exact L.
Qed.
Print Assumptions C395_halt.
(* C396: details need the coordinates at the start of the element, and an identity that is an int *)
Lemma find_some_id i l : In i (map w_id l) -> exists p, find_id i l = Some p.
Proof. unfold find_id. induction l as [|x l IH]; intros I; [destruct I|]. cbn [find]. destruct (Z.eqb_spec (w_id x) i); [eauto|]. apply IH. destruct I; [contradiction|assumption]. Qed.
Theorem C396_defined : forall name c b, (forall p, In p b -> bad p -> (- 2 ^ 31 <= w_id p < 2 ^ 31)%Z) -> (c_detailed c = true -> incl (map w_id b) (map w_id (c_start c))) -> do_check name c b <> WUB.
Proof.
  intros name c b IR ST. assert (L : forall l count doc d out, incl l b -> c_detailed d = c_detailed c -> c_start d = c_start c -> forall x, check_loop name b l count doc d out = x -> fst x <> WUB).
  { induction l as [|p l IH]; intros count doc d out IN DE SE x E; cbn [check_loop] in E; [subst x; discriminate|]. assert (IN' : incl l b) by (intros q Q; apply IN; now right). assert (PB : In p b) by (apply IN; now left).
    destruct (existsb _ _); [eapply IH; eassumption|]. destruct (is_good p) eqn:G; [eapply IH; eassumption|]. apply bad_not in G.
    assert (TI : to_int (w_id p) = w_id p). { unfold to_int. specialize (IR p PB G). rewrite Z.mod_small; [ring|]. change (2 ^ 32)%Z with 4294967296%Z. change (2 ^ 31)%Z with 2147483648%Z in *. lia. }
    destruct (find_some_id (w_id p) b (in_map w_id b p PB)) as (cu & CU).
    assert (RP : exists r, report d b (w_id p) = Some r). { unfold report. cbv zeta. rewrite TI, CU, DE, SE. destruct (c_detailed c); [|eauto]. destruct (find_some_id (w_id p) (c_start c)) as (s & ->); [apply ST; [reflexivity|now apply in_map]|eauto]. }
    destruct RP as (r & RP). rewrite RP in E. cbv zeta in E. destruct (c_halt d); [subst x; discriminate|]. eapply IH; [exact IN'| | |exact E]; assumption. }
  intros E. unfold do_check in E. specialize (L b O false c [] (incl_refl b) eq_refl eq_refl _ eq_refl). destruct (check_loop name b b 0 false c []) as ([c' b' out|out|] & doc); cbn [fst] in L; [destruct doc; discriminate|destruct doc; discriminate|now apply L].
Qed.
Print Assumptions C396_defined.
Theorem C396_late_refuted : forall name c b, c_detailed c = true -> c_start c = [] -> (exists p, In p b /\ bad p /\ ~ In (w_id p) (c_reported c)) -> do_check name c b = WUB.
Proof.
  intros name c b DE SE (p & P & B & N). assert (L : forall l count doc, In p l -> exists doc', check_loop name b l count doc c [] = (WUB, doc')).
  { induction l as [|q l IH]; intros count doc I; [destruct I|]. cbn [check_loop]. destruct (existsb (Z.eqb (w_id q)) (c_reported c)) eqn:S.
    - destruct I as [->|I]; [apply seen_In in S; contradiction|now apply IH].
    - destruct (is_good q) eqn:G; [destruct I as [->|I]; [apply good_bad in G; contradiction|now apply IH]|]. unfold report. rewrite DE, SE. cbn [find_id find]. destruct (find_id (to_int (w_id q)) b); eauto. }
  unfold do_check. destruct (L b O false P) as (doc & ->). now destruct doc.
Qed.
Print Assumptions C396_late_refuted.
Theorem C396_int_refuted : forall name, do_check name new_check [badp (2 ^ 31)] = WUB.
Proof. reflexivity. Qed.
Print Assumptions C396_int_refuted.
Theorem C396_lines : forall c b id r, report c b id = Some r -> (- 2 ^ 31 <= id < 2 ^ 31)%Z -> exists cur, In cur b /\ w_id cur = id /\
  (c_detailed c = false -> r = [LCurrent cur]) /\ (c_detailed c = true -> exists s, In s (c_start c) /\ w_id s = id /\ ((exists p, In p (c_prev c) /\ w_id p = id /\ r = [LPrev p; LStart s; LCurrent cur]) \/ (~ In id (map w_id (c_prev c)) /\ r = [LStart s; LCurrent cur]))).
Proof.
  intros c b id r E IR. unfold report in E. cbv zeta in E. assert (TI : to_int id = id). { unfold to_int. rewrite Z.mod_small; [ring|]. change (2 ^ 32)%Z with 4294967296%Z. change (2 ^ 31)%Z with 2147483648%Z in *. lia. } rewrite TI in E.
  assert (FS : forall l p, find_id id l = Some p -> In p l /\ w_id p = id) by (intros l p F; apply find_some in F; destruct F as (F1 & F2); split; [exact F1|now apply Z.eqb_eq]).
  destruct (find_id id b) as [cur|] eqn:CU; [|destruct (c_detailed c); [destruct (find_id id (c_start c))|]; discriminate]. destruct (FS _ _ CU) as (C1 & C2). exists cur. do 2 (split; [assumption|]). destruct (c_detailed c).
  - split; [discriminate|]. intros _. destruct (find_id id (c_start c)) as [s|] eqn:ST; [|discriminate]. destruct (FS _ _ ST) as (S1 & S2). exists s. do 2 (split; [assumption|]). injection E as <-. destruct (find_id id (c_prev c)) as [p|] eqn:PV.
    + destruct (FS _ _ PV) as (P1 & P2). left. exists p. auto.
    + right. split; [|reflexivity]. intros I. destruct (find_some_id id (c_prev c) I). congruence.
  - injection E as <-. split; [reflexivity|discriminate].
Qed.
Print Assumptions C396_lines.
Example C396_ex : let c := set_component [okp 1; okp 2] (set_component [okp 2] (set_detailed true new_check)) in exists c', do_check [] c [okp 1; badp 2] = WRun c' [okp 1; badp 2] [LFound 1 2 []; LPrev (okp 2); LStart (okp 2); LCurrent (badp 2)].
Proof. eexists. reflexivity. Qed.
(* ---- monitors ---- *)
Definition digit (a : ascii) : Prop := In a (list_ascii_of_string "0123456789").
Lemma uint_digits d : Forall digit (list_ascii_of_string (NilEmpty.string_of_uint d)).
Proof. induction d; cbn [NilEmpty.string_of_uint list_ascii_of_string]; constructor; try assumption; unfold digit; cbn; tauto. Qed.
Lemma to_string_digits n : Forall digit (to_string n).
Proof.
  unfold to_string, of_string, NilZero.string_of_uint. destruct (Nat.to_uint n) eqn:E; try (rewrite <- E; apply uint_digits). cbn. constructor; [|constructor]. unfold digit. cbn. tauto.
Qed.
Lemma to_uint_nonnil n : Nat.to_uint n <> Decimal.Nil.
Proof. intros E. pose proof (DecimalNat.Unsigned.to_of (Nat.to_uint n)) as H. rewrite (DecimalNat.Unsigned.of_to n), E in H. discriminate. Qed.
Lemma to_string_inj n m : to_string n = to_string m -> n = m.
Proof.
  unfold to_string, of_string. intros E. apply (f_equal string_of_list_ascii) in E. rewrite !string_of_list_ascii_of_string in E. apply (f_equal NilZero.uint_of_string) in E. rewrite !NilZero.usu in E by apply to_uint_nonnil. injection E as E. now apply DecimalNat.Unsigned.to_uint_inj.
Qed.
Lemma tail_inj : forall (s1 s2 d1 d2 : str), Forall digit d1 -> Forall digit d2 -> (s1 ++ "_"%char :: d1 = s2 ++ "_"%char :: d2)%list -> s1 = s2 /\ d1 = d2.
Proof.
  assert (ND : ~ digit "_"%char) by (unfold digit; cbn; intuition discriminate).
  assert (IN : forall s d, ~ Forall digit (s ++ "_"%char :: d)%list) by (intros s d F; apply Forall_app in F; destruct F as (_ & F); inversion F; contradiction).
  induction s1 as [|a s1 IH]; intros [|b s2] d1 d2 F1 F2 E; cbn [app] in E.
  - injection E as ->. auto.
  - injection E as <- E. exfalso. apply (IN s2 d2). now rewrite <- E.
  - injection E as -> E. exfalso. apply (IN s1 d1). now rewrite E.
  - injection E as -> E. destruct (IH s2 d1 d2 F1 F2 E) as (-> & ->). auto.
Qed.
Definition numbered (n : nat) (f : str) : Prop := exists stem, f = (stem ++ "_"%char :: to_string n)%list.
Fixpoint numbers (n : nat) (l : list str) : Prop := match l with [] => True | f :: q => numbered n f /\ numbers (Datatypes.S n) q end.
Lemma numbers_app : forall l m n, numbers n (l ++ m) <-> numbers n l /\ numbers (n + length l)%nat m.
Proof. induction l as [|f l IH]; intros m n; cbn [app numbers length]; [rewrite Nat.add_0_r; tauto|]. rewrite IH. replace (Datatypes.S n + length l)%nat with (n + Datatypes.S (length l))%nat by lia. tauto. Qed.
Lemma numbers_fresh : forall l n k f, numbers n l -> (k < n)%nat -> numbered k f -> ~ In f l.
Proof.
  induction l as [|g l IH]; intros n k f N K F I; [exact I|]. destruct N as (G & N). destruct I as [->|I]; [|apply (IH (Datatypes.S n) k f N); [lia|exact F|exact I]]. destruct F as (s1 & ->), G as (s2 & G). apply tail_inj in G; try apply to_string_digits. destruct G as (_ & G). apply to_string_inj in G. lia.
Qed.
Lemma numbers_NoDup : forall l n, numbers n l -> NoDup l.
Proof. induction l as [|f l IH]; intros n N; constructor; destruct N as (F & N); [apply (numbers_fresh l (Datatypes.S n) n f N); [lia|exact F]|now apply (IH (Datatypes.S n))]. Qed.
Lemma dumps_ok name : forall n m files m' files', dumps name n m files = MRun m' files' -> exists new, files' = (files ++ new)%list /\ numbers (m_count m) new /\ m_count m' = (m_count m + length new)%nat /\ m_prefix m' = m_prefix m /\ m_at m' = m_at m /\ m_bunch m' = m_bunch m /\ m_active m' = m_active m /\
  length new = (if m_active m then n else O) /\ (forall f, In f new -> exists k, f = (m_prefix m ++ name ++ "_"%char :: to_string k)%list).
Proof.
  induction n as [|n IH]; intros m files m' files' E; cbn [dumps] in E.
  - injection E as <- <-. exists []. rewrite app_nil_r. cbn. repeat split; auto. now destruct (m_active m). intros f [].
  - destruct (m_active m) eqn:A.
    + destruct (m_bunch m) eqn:B; [|discriminate]. destruct (IH _ _ _ _ E) as (new & H1 & H2 & H3 & H4 & H5 & H6 & H7 & H8 & H9). cbn [m_prefix m_at m_count m_active m_bunch] in *. exists (file_name m name :: new). split; [rewrite H1, <- app_assoc; reflexivity|]. cbn [numbers length]. split; [split; [|exact H2]|].
      * exists (m_prefix m ++ name)%list. unfold file_name. now rewrite <- app_assoc.
      * rewrite H3, H8. split; [lia|]. do 4 (split; [congruence|]). split; [lia|]. intros f [<-|F]; [eexists; reflexivity|now apply H9].
    + injection E as <- <-. exists []. rewrite app_nil_r. cbn. repeat split; auto. intros f [].
Qed.
(* C397: no file is written twice; they are numbered from one upwards *)
Theorem C397_files : forall l m files m' files', mon_run l m files = MRun m' files' -> exists new, files' = (files ++ new)%list /\ numbers (m_count m) new /\ NoDup new /\ m_count m' = (m_count m + length new)%nat.
Proof.
  assert (G : forall l m files m' files', mon_run l m files = MRun m' files' -> exists new, files' = (files ++ new)%list /\ numbers (m_count m) new /\ m_count m' = (m_count m + length new)%nat).
  { induction l as [|e l IH]; intros m files m' files' E; cbn [mon_run] in E.
    - injection E as <- <-. exists []. rewrite app_nil_r. cbn. auto.
    - destruct (mon_event e m files) as [m1 f1|] eqn:V; [|discriminate]. destruct (IH _ _ _ _ E) as (new & H1 & H2 & H3).
      assert (S : exists n1, f1 = (files ++ n1)%list /\ numbers (m_count m) n1 /\ m_count m1 = (m_count m + length n1)%nat).
      { destruct e; cbn [mon_event] in V; try (injection V as <- <-; exists []; rewrite app_nil_r; cbn; auto). destruct (dumps_ok _ _ _ _ _ _ V) as (n1 & A & B & C & _). exists n1. auto. }
      destruct S as (n1 & A & B & C). exists (n1 ++ new)%list. split; [now rewrite H1, A, app_assoc|]. rewrite numbers_app, <- C, app_length. split; [auto|lia]. }
  intros l m files m' files' E. destruct (G _ _ _ _ _ E) as (new & A & B & C). exists new. do 2 (split; [assumption|]). split; [exact (numbers_NoDup _ _ B)|exact C].
Qed.
Print Assumptions C397_files.
(* C398: files are written at the elements named, one for each step, and nowhere else *)
Lemma named_In name l : existsb (fun s => str_eqb s name) l = true <-> In name l.
Proof. rewrite existsb_exists. split; [intros (x & I & E); apply str_eqb_eq in E; now subst|]. intros I. exists name. split; [exact I|now apply str_eqb_eq]. Qed.
Theorem C398_elements : forall name n m files, m_bunch m = true -> exists m' new, mon_event (EElement name n) m files = MRun m' (files ++ new)%list /\ m_prefix m' = m_prefix m /\ m_at m' = m_at m /\ m_bunch m' = m_bunch m /\
  (In name (m_at m) -> length new = n /\ forall f, In f new -> exists k, f = (m_prefix m ++ name ++ "_"%char :: to_string k)%list) /\ (~ In name (m_at m) -> new = []).
Proof.
  intros name n m files B. cbn [mon_event]. set (m1 := mon_component name m). assert (B1 : m_bunch m1 = true) by exact B.
  assert (OK : forall n m files, m_bunch m = true -> exists m' f', dumps name n m files = MRun m' f') by (clear; induction n as [|n IH]; intros m files B; cbn [dumps]; [eauto|]; destruct (m_active m); [rewrite B; apply IH; reflexivity|eauto]).
  destruct (OK n m1 files B1) as (m' & f' & E). destruct (dumps_ok _ _ _ _ _ _ E) as (new & -> & _ & _ & P & A & BB & _ & LN & F). exists m', new. split; [exact E|]. do 3 (split; [assumption|]). unfold m1, mon_component in LN, F. cbn [m_active m_prefix] in LN, F. split.
  - intros I. rewrite (proj2 (named_In _ _) I) in LN. auto.
  - intros NI. destruct (existsb _ (m_at m)) eqn:X; [apply named_In in X; contradiction|]. now apply length_zero_iff_nil.
Qed.
Print Assumptions C398_elements.
Example C398_ex : exists m', mon_run [EAdd (of_string "BPM"); EInit true; EElement (of_string "Q") 2; EElement (of_string "BPM") 1; EElement (of_string "BPM") 2] (new_monitor (of_string "out_")) [] = MRun m' [of_string "out_BPM_1"; of_string "out_BPM_2"; of_string "out_BPM_3"].
Proof. eexists. reflexivity. Qed.
(* C399: without a bunch of particles the process is switched off only until the next element named *)
Theorem C399_no_bunch_refuted : forall name n m files, In name (m_at m) -> m_active (init_monitor false m) = false /\ mon_run [EInit false; EElement name (Datatypes.S n)] m files = MNull.
Proof. intros name n m files I. split; [reflexivity|]. cbn [mon_run mon_event]. unfold mon_component, init_monitor. cbn [dumps m_at m_active m_bunch]. now rewrite (proj2 (named_In _ _) I). Qed.
Print Assumptions C399_no_bunch_refuted.
(* ---- errors of frames ---- *)
Definition hit (pat : str) (f : option eframe) : bool := match f with Some f => pmatch ("*"%char :: "."%char :: pat) (e_name f) | None => false end.
Definition draws (rms : R) : nat := if Rle_dec (rms * rms) eps then O else 1%nat.
Definition error (rms mean : R) (z : nat -> R) (n : nat) : R := if Rle_dec (rms * rms) eps then mean else gauss rms mean (z n).
Lemma draw_ok z n rms m : draw z n (rms * rms) m = (error rms m z n, (n + draws rms)%nat).
Proof.
  unfold draw, error, draws, gauss. destruct (fequal_spec (rms * rms) 0) as [H|H]; rewrite Rminus_0_r, Rabs_pos_eq in H by apply Rle_0_sqr; destruct (Rle_dec (rms * rms) eps); try lra.
  - now rewrite Nat.add_0_r.
  - rewrite Nat.add_1_r. f_equal. f_equal. f_equal. apply (sqrt_Rsqr_abs rms).
Qed.
(* the state of the frames after errors of given rms and means, the k-th frame hit using its own random numbers *)
Fixpoint disturbed (keep : bool) (rx ry rz mx my mz : R) (trans : bool) (z : nat -> R) (pat : str) (l : list (option eframe)) (n : nat) : list (option eframe) :=
  match l with
  | [] => []
  | None :: q => None :: disturbed keep rx ry rz mx my mz trans z pat q n
  | Some f :: q =>
    if hit pat (Some f) then
      let ex := error rx mx z n in let ey := error ry my z (n + draws rx)%nat in let ez := error rz mz z (n + draws rx + draws ry)%nat in
      let ms := (if trans then [Shift ex ey ez] else (if Rle_dec (Rabs ex) eps then [] else [RotX ex]) ++ (if Rle_dec (Rabs ey) eps then [] else [RotY ey]) ++ (if Rle_dec (Rabs ez) eps then [] else [RotZ ez]))%list in
      Some (mkE (e_name f) (if keep then e_moves f ++ ms else ms)%list)
      :: disturbed keep rx ry rz mx my mz trans z pat q (n + draws rx + draws ry + draws rz)%nat
    else Some f :: disturbed keep rx ry rz mx my mz trans z pat q n
  end.
Definition setting (keep : bool) := if keep then add_errors else set_errors.
Lemma feq0 {A} x (a b : A) : (if fequal x 0 then a else b) = if Rle_dec (Rabs x) eps then a else b.
Proof. destruct (fequal_spec x 0) as [H|H]; rewrite Rminus_0_r in H; destruct (Rle_dec (Rabs x) eps); (reflexivity || lra). Qed.
(* C400: frames whose names match are moved by errors of the given means and rms, each with its own random numbers; no other frame is touched *)
Theorem C400_errors : forall keep rx ry rz mx my mz (trans : bool) z pat l n, let e := setting keep rx ry rz mx my mz in
  (if trans then apply_shifts z e pat l n else apply_rotations z e pat l n) = (disturbed keep rx ry rz mx my mz trans z pat l n, (n + length (filter (hit pat) l) * (draws rx + draws ry + draws rz))%nat).
Proof.
  intros keep rx ry rz mx my mz trans z pat l n. cbv zeta. replace (if trans then apply_shifts z (setting keep rx ry rz mx my mz) pat l n else apply_rotations z (setting keep rx ry rz mx my mz) pat l n) with (apply_errors z (setting keep rx ry rz mx my mz) pat trans l n) by now destruct trans.
  revert n. induction l as [|f l IH]; intros n; cbn [apply_errors disturbed filter length]; [f_equal; lia|]. destruct f as [f|]; unfold disturb.
  - unfold hit at 1 2. destruct (pmatch _ (e_name f)).
    + assert (VX : vx2 (setting keep rx ry rz mx my mz) = rx * rx) by now destruct keep. assert (VY : vy2 (setting keep rx ry rz mx my mz) = ry * ry) by now destruct keep. assert (VZ : vz2 (setting keep rx ry rz mx my mz) = rz * rz) by now destruct keep.
      assert (MX : e_mx (setting keep rx ry rz mx my mz) = mx) by now destruct keep. assert (MY : e_my (setting keep rx ry rz mx my mz) = my) by now destruct keep. assert (MZ : e_mz (setting keep rx ry rz mx my mz) = mz) by now destruct keep. assert (CL : e_clear (setting keep rx ry rz mx my mz) = negb keep) by now destruct keep.
      cbv zeta. rewrite VX, VY, VZ, MX, MY, MZ, CL, !draw_ok. rewrite IH. rewrite !feq0. cbn [length]. f_equal; [|lia]. f_equal. now destruct keep.
    + rewrite IH. reflexivity.
  - rewrite IH. reflexivity.
Qed.
Print Assumptions C400_errors.
(* C401: errors of less than about fifteen nanometres (or nanoradians) are left out *)
Theorem C401_small_refuted : forall rms mean n, Rabs rms <= / 2 ^ 26 -> exists e, (forall z, error rms mean z n = e) /\ e = mean /\ forall z, draw z n (rms * rms) mean = (mean, n).
Proof.
  intros rms mean n H. assert (S : rms * rms <= eps). { replace (rms * rms) with (Rabs rms * Rabs rms) by (rewrite <- Rabs_mult; apply Rabs_pos_eq, Rle_0_sqr). pose proof (Rabs_pos rms). replace eps with (/ 2 ^ 26 * / 2 ^ 26); [apply Rmult_le_compat; lra|]. unfold eps. rewrite <- Rinv_mult. f_equal. rewrite <- pow_add. reflexivity. }
  exists mean. split; [|split; [reflexivity|]].
  - intros z. unfold error. destruct (Rle_dec (rms * rms) eps); [reflexivity|contradiction].
  - intros z. rewrite draw_ok. unfold error, draws. destruct (Rle_dec (rms * rms) eps); [now rewrite Nat.add_0_r|contradiction].
Qed.
Print Assumptions C401_small_refuted.
Example C401_ex : Rabs (1 / 100000000) <= / 2 ^ 26 /\ exists z, error 1 0 z 3 = 5.
Proof. split; [rewrite Rabs_pos_eq by lra; lra|]. exists (fun _ => 5). unfold error, gauss. destruct (Rle_dec (1 * 1) eps) as [H|H]; [pose proof eps_small; lra|]. rewrite Rabs_pos_eq by lra. ring. Qed.
(* C402: rotations which are set take away the shifts set before; added ones keep them *)
Theorem C402_both_refuted : forall rx ry rz mx my mz z pat l n l' n', apply_rotations z (set_errors rx ry rz mx my mz) pat l n = (l', n') ->
  forall f, In (Some f) l' -> hit pat (Some f) = true -> forall x y s, ~ In (Shift x y s) (e_moves f).
Proof.
  intros rx ry rz mx my mz z pat l n l' n' E f I H x y s J. pose proof (C400_errors false rx ry rz mx my mz false z pat l n) as C. cbv zeta in C. cbn [setting] in C. rewrite C in E. injection E as <- _. clear C. revert n I. induction l as [|g l IH]; intros n I; cbn [disturbed] in I; [exact I|]. destruct g as [g|].
  - destruct (hit pat (Some g)) eqn:HG.
    + cbv zeta in I. destruct I as [I|I]; [|exact (IH _ I)]. injection I as <-. cbn [e_moves app] in J. repeat (apply in_app_or in J; destruct J as [J|J]); destruct (Rle_dec _ eps) in J; cbn [In] in J; intuition discriminate.
    + destruct I as [I|I]; [|exact (IH _ I)]. injection I as <-. congruence.
  - destruct I as [I|I]; [discriminate|exact (IH _ I)].
Qed.
Print Assumptions C402_both_refuted.
Theorem C402_added : forall rx ry rz mx my mz trans z pat l n l' n', apply_errors z (add_errors rx ry rz mx my mz) pat trans l n = (l', n') ->
  Forall2 (fun f g => match f, g with Some f, Some g => e_name g = e_name f /\ exists new, e_moves g = (e_moves f ++ new)%list | None, None => True | _, _ => False end) l l'.
Proof.
  intros rx ry rz mx my mz trans z pat l n l' n' E. pose proof (C400_errors true rx ry rz mx my mz trans z pat l n) as C. cbv zeta in C. cbn [setting] in C. assert (C' : apply_errors z (add_errors rx ry rz mx my mz) pat trans l n = (if trans then apply_shifts z (add_errors rx ry rz mx my mz) pat l n else apply_rotations z (add_errors rx ry rz mx my mz) pat l n)) by now destruct trans. rewrite C', C in E. injection E as <- _. clear C C'.
  revert n. induction l as [|g l IH]; intros n; cbn [disturbed]; [constructor|]. destruct g as [g|]; [|constructor; [exact I|apply IH]]. destruct (hit pat (Some g)).
  - cbv zeta. constructor; [|apply IH]. cbn [e_name e_moves]. split; [reflexivity|]. eexists. reflexivity.
  - constructor; [|apply IH]. split; [reflexivity|]. exists []. now rewrite app_nil_r.
Qed.
Print Assumptions C402_added.
(* C403: of alternatives in the pattern only the first is looked for in names *)
Theorem C403_alternatives_refuted : hit (of_string "QF") (Some (mkE (of_string "Quadrupole.QF") [])) = true /\ hit (of_string "QD") (Some (mkE (of_string "Quadrupole.QD") [])) = true /\
  hit (of_string "QF|QD") (Some (mkE (of_string "Quadrupole.QF") [])) = true /\ hit (of_string "QF|QD") (Some (mkE (of_string "Quadrupole.QD") [])) = false /\ hit (of_string "QF|*.QD") (Some (mkE (of_string "Quadrupole.QD") [])) = true.
Proof. repeat split; vm_compute; reflexivity. Qed.
Print Assumptions C403_alternatives_refuted.
Example C402_ex : forall z, apply_rotations z (set_errors 0 0 0 1 0 0) (of_string "QF") [Some (mkE (of_string "Quadrupole.QF") [Shift 1 1 1]); None; Some (mkE (of_string "Drift.D") [Shift 2 2 2])] 0
  = ([Some (mkE (of_string "Quadrupole.QF") [RotX 1]); None; Some (mkE (of_string "Drift.D") [Shift 2 2 2])], O).
Proof.
  intros z. pose proof (C400_errors false 0 0 0 1 0 0 false z (of_string "QF") [Some (mkE (of_string "Quadrupole.QF") [Shift 1 1 1]); None; Some (mkE (of_string "Drift.D") [Shift 2 2 2])] 0) as C. cbv zeta in C. cbn [setting] in C. rewrite C. clear C.
  assert (H1 : hit (of_string "QF") (Some (mkE (of_string "Quadrupole.QF") [Shift 1 1 1])) = true) by (vm_compute; reflexivity). assert (H2 : hit (of_string "QF") (Some (mkE (of_string "Drift.D") [Shift 2 2 2])) = false) by (vm_compute; reflexivity).
  cbn [disturbed filter]. rewrite H1, H2. cbn [hit]. unfold error, draws. pose proof eps_pos. pose proof eps_small. rewrite Rmult_0_l. destruct (Rle_dec 0 eps); [|lra]. cbv zeta. rewrite Rabs_R0, Rabs_R1. destruct (Rle_dec 1 eps); [lra|]. destruct (Rle_dec 0 eps); [|lra]. reflexivity.
Qed.
