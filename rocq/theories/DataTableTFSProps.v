(** Properties of the TFS reader and writer. *)
From Coq Require Import DecimalString DecimalZ.
From Verif Require Import Base DataTable DataTableSpec DataTableProofs DataTableTFS DataTableTFSProofs.

(** ** C07: what is written is read back as the same table

    The two tables answer every sequence of later operations in the same way.
    [showd]/[stod] (and [showi]/[stoi]) are the formatting and parsing of
    numbers; the hypothesis [good] asks that the stored numbers survive it. *)
Theorem C07_tfs_round_trip :
  forall D (d0 : D) stod stoi showd showi (ops : list (op D)),
  let t := fst (run d0 stod stoi showd showi ops empty) in
  (forall z, plain (showi z)) ->
  Forall plain (col_names t) -> Forall plain (hcol_names t) ->
  (forall n i v, holds t n i v -> good stod stoi showd showi v) ->
  (forall n v, hholds t n v -> good stod stoi showd showi v) ->
  (col_names t <> [] \/ len t = 0) ->
  exists txt t', write showd showi t = Ok txt /\ read d0 stod stoi txt = Ok t'
    /\ forall more, snd (run d0 stod stoi showd showi more t') = snd (run d0 stod stoi showd showi more t).
Proof.
  intros D d0 stod stoi showd showi ops t H1 H2 H3 H4 H5 H6.
  destruct (reachable_rel d0 stod stoi showd showi ops) as [a Ha].
  destruct (roundtrip d0 stod stoi showd showi t a Ha H1 H2 H3 H4 H5 H6) as (txt & t' & E1 & E2 & H).
  exists txt, t'. split; [exact E1|]. split; [exact E2|]. intros more.
  transitivity (snd (s_run d0 stod stoi showd showi more a)).
  - apply (run_refines d0 stod stoi showd showi more t' a H).
  - symmetry. apply (run_refines d0 stod stoi showd showi more t a Ha).
Qed.
Print Assumptions C07_tfs_round_trip.

(** decimal integers *)
Definition showz (z : Z) : str := list_ascii_of_string (NilZero.string_of_int (Z.to_int z)).
Definition readz (s : str) : res dt_err Z :=
  match NilZero.int_of_string (string_of_list_ascii s) with
  | Some i => Ok (Z.of_int i) | None => Throw InvalidArgument
  end.
Lemma readz_showz z : readz (showz z) = Ok z.
Proof.
  unfold readz, showz. rewrite string_of_list_ascii_of_string.
  rewrite NilZero.isi by (destruct z; simpl; try discriminate;
    intros E; injection E; apply (DecimalPos.Unsigned.to_uint_nonnil) || discriminate).
  rewrite DecimalZ.of_to. reflexivity.
Qed.

Lemma digits_plain d : Forall plainc (list_ascii_of_string (NilEmpty.string_of_uint d)).
Proof. induction d; simpl; repeat (constructor; auto); try discriminate. Qed.
Lemma showz_plain z : plain (showz z).
Proof.
  unfold showz.
  assert (H : forall d, plain (list_ascii_of_string (NilZero.string_of_uint d))).
  { intros d. split; [destruct d; discriminate|].
    destruct d; try apply digits_plain. repeat constructor; discriminate. }
  unfold NilZero.string_of_int. destruct (Z.to_int z) as [d|d]; [apply H|].
  split; [discriminate|]. simpl. constructor; [split; [discriminate|reflexivity]|]. apply H.
Qed.

(** tables whose "double" columns hold whole numbers *)
Notation zrun := (run 0%Z readz readz showz showz).
Definition tfs_ops : list (op Z) :=
  [AddColumn (of_string "NAME") "s"; AddColumn (of_string "S") "d"; AddColumn (of_string "N") "i";
   HAddColumn (of_string "TITLE") "s"; HSet (of_string "TITLE") (VS (of_string "two words"));
   HAddColumn (of_string "Q1") "d"; HSet (of_string "Q1") (VD 64%Z);
   AddRowV [VS (of_string "BPM 1"); VD 12%Z; VI (-7)%Z]; AddRowV [VS (of_string "Q2"); VD 0%Z; VI 3%Z]].

Example C07_hypotheses_met :
  let t := fst (zrun tfs_ops empty) in
  (forall z, plain (showz z)) /\ Forall plain (col_names t) /\ Forall plain (hcol_names t) /\
  (forall n i v, holds t n i v -> good readz readz showz showz v) /\
  (forall n v, hholds t n v -> good readz readz showz showz v) /\ col_names t <> [] /\ len t = 2.
Proof.
  intros t. assert (Hz : forall z, plain (showz z) /\ readz (showz z) = Ok z)
    by (intros; split; [apply showz_plain|apply readz_showz]).
  assert (Hq : forall s, existsb (fun c => char_eqb c quote || char_eqb c newline) s = false -> s <> [] ->
    s <> [] /\ ~ In quote s /\ ~ In newline s).
  { intros s He Hs. split; [exact Hs|].
    split; intros Hin; (assert (Ht : existsb (fun c => char_eqb c quote || char_eqb c newline) s = true);
      [apply existsb_exists; eexists; split; [exact Hin|reflexivity]|congruence]). }
  assert (E1 : col_names t = [of_string "NAME"; of_string "S"; of_string "N"]) by (vm_compute; reflexivity).
  assert (E2 : hcol_names t = [of_string "TITLE"; of_string "Q1"]) by (vm_compute; reflexivity).
  assert (E3 : lookup t = [(of_string "NAME", (cS, 0)); (of_string "S", (cD, 0)); (of_string "N", (cI, 0))])
    by (vm_compute; reflexivity).
  assert (E4 : hlookup t = [(of_string "TITLE", (cS, 0)); (of_string "Q1", (cD, 0))]) by (vm_compute; reflexivity).
  assert (E5 : data_s t = [[of_string "BPM 1"; of_string "Q2"]]) by (vm_compute; reflexivity).
  assert (E6 : hdata_s t = [of_string "two words"]) by (vm_compute; reflexivity).
  assert (E7 : len t = 2) by (vm_compute; reflexivity).
  clearbody t. rewrite E1, E2.
  split; [apply showz_plain|]. split; [repeat constructor; discriminate|]. split; [repeat constructor; discriminate|].
  split; [|split; [|split; [discriminate|exact E7]]].
  - intros n i [x|x|x] Hh; simpl; auto.
    revert Hh. unfold holds, get_s, get_location. rewrite E3, E5. cbn [assoc].
    destruct (str_eqb n (of_string "NAME")).
    + simpl. destruct i as [|[|i]]; simpl; try (intros E; injection E as <-; apply Hq; [reflexivity|discriminate]).
      destruct i; discriminate.
    + destruct (str_eqb n (of_string "S")); [discriminate|]. destruct (str_eqb n (of_string "N")); discriminate.
  - intros n [x|x|x] Hh; simpl; auto.
    revert Hh. unfold hholds, h_get_s, get_hlocation. rewrite E4, E6. cbn [assoc].
    destruct (str_eqb n (of_string "TITLE")).
    + simpl. intros E; injection E as <-; apply Hq; [reflexivity|discriminate].
    + destruct (str_eqb n (of_string "Q1")); discriminate.
Qed.

Example C07_text : write showz showz (fst (zrun tfs_ops empty)) = Ok (of_string
"@ TITLE            %9s ""two words""
@ Q1               %le 64                
* NAME S N 
$ %s %le %d 
 ""BPM 1"" 12                 -7      
 ""Q2"" 0                  3       
").
Proof. vm_compute. reflexivity. Qed.

(** ** C08: any string survives -- false *)
Notation one s := (fst (zrun [AddColumn (of_string "A") "s"; AddRowV [VS s]] empty)).

Theorem C08_string_round_trip_refuted :
  exists s txt t', write showz showz (one s) = Ok txt /\ read 0%Z readz readz txt = Ok t'
    /\ holds (one s) (of_string "A") 0 (VS s) /\ ~ holds t' (of_string "A") 0 (VS s).
Proof.
  exists (of_string "a""b").
  eexists _, _. split; [vm_compute; reflexivity|]. split; [vm_compute; reflexivity|].
  split; [vm_compute; reflexivity|]. vm_compute. discriminate.
Qed.
Print Assumptions C08_string_round_trip_refuted.

(** an empty string loses its row, or makes the written file unreadable *)
Theorem C08_empty_string_refuted :
  (exists txt t', write showz showz (one []) = Ok txt /\ read 0%Z readz readz txt = Ok t'
     /\ len (one []) = 1 /\ len t' = 0) /\
  (exists ops txt, write showz showz (fst (zrun ops empty)) = Ok txt
     /\ holds (fst (zrun ops empty)) (of_string "A") 0 (VS [])
     /\ read 0%Z readz readz txt = Throw BadFormat).
Proof.
  split.
  - eexists _, _. split; [vm_compute; reflexivity|]. split; [vm_compute; reflexivity|].
    split; vm_compute; reflexivity.
  - exists [AddColumn (of_string "A") "s"; AddColumn (of_string "N") "i"; AddRowV [VS []; VI 1%Z]].
    eexists. split; [vm_compute; reflexivity|]. split; vm_compute; reflexivity.
Qed.
Print Assumptions C08_empty_string_refuted.

(** every non-empty string without double quote and line end survives, in any table *)
Theorem C08_string_round_trip_partial :
  forall s, s <> [] -> ~ In quote s -> ~ In newline s ->
  exists txt t', write showz showz (one s) = Ok txt /\ read 0%Z readz readz txt = Ok t'
    /\ len t' = 1 /\ col_names t' = [of_string "A"] /\ holds t' (of_string "A") 0 (VS s).
Proof.
  intros s H1 H2 H3.
  destruct (C07_tfs_round_trip Z 0%Z readz readz showz showz [AddColumn (of_string "A") "s"; AddRowV [VS s]])
    as (txt & t' & E1 & E2 & Hrun).
  - apply showz_plain.
  - repeat constructor; discriminate.
  - constructor.
  - intros n i [x|x|x] Hh; simpl; try (split; [apply showz_plain|apply readz_showz]).
    revert Hh. unfold holds, get_s, get_location.
    change (lookup (one s)) with [(of_string "A", (cS, 0))]. change (data_s (one s)) with [[s]]. cbn [assoc].
    destruct (str_eqb n (of_string "A")); [|discriminate].
    change (char_eqb (fst (cS, 0)) cS) with true. simpl.
    destruct i as [|i]; simpl; [intros E; injection E as <-; auto|destruct i; discriminate].
  - intros n [x|x|x]; simpl; discriminate.
  - left. discriminate.
  - exists txt, t'. split; [exact E1|]. split; [exact E2|].
    pose proof (Hrun [Length]) as Hl. injection Hl as Hl.
    pose proof (Hrun [ColumnNames]) as Hn. injection Hn as Hn.
    pose proof (Hrun [Get_s (of_string "A") 0]) as Hs. cbn [run step snd] in Hs.
    change (get_s (of_string "A") 0 (one s)) with (@Ok dt_err str s) in Hs.
    split; [exact Hl|]. split; [exact Hn|]. unfold holds.
    destruct (get_s (of_string "A") 0 t') as [x|x|]; cbn in Hs; congruence.
Qed.
Print Assumptions C08_string_round_trip_partial.

(** ** C58: reading any text gives a table or reports an error -- false *)
Theorem C58_read_any_text_refuted :
  read 0%Z readz readz [] = UB /\
  read 0%Z readz readz (of_string "* A
") = UB /\
  read 0%Z readz readz (of_string "* A

$ %d
") = UB.
Proof. repeat split; vm_compute; reflexivity. Qed.
Print Assumptions C58_read_any_text_refuted.

(** true when the text has a line that is neither blank nor a header line,
    directly followed by a line that is not blank *)
Theorem C152_read_text :
  forall D (d0 : D) stod stoi txt pre nl tl post w0 names,
  (forall x, stod x <> UB) -> (forall x, stoi x <> UB) ->
  fst (lines txt) = pre ++ nl :: tl :: post -> Forall header_line pre ->
  split_line nl = w0 :: names -> w0 <> of_string "@" -> split_line tl <> [] ->
  read d0 stod stoi txt <> UB.
Proof.
  intros D d0 stod stoi txt pre nl tl post w0 names Hd Hi H1 H2 H3 H4 H5.
  apply (read_safe d0 stod stoi (fun _ => []) (fun _ => []) Hd Hi txt pre nl tl post w0 names H1 H2 H3 H4 H5).
Qed.
Print Assumptions C152_read_text.

(** and whatever the text, an accepted table has all its columns of equal length *)
Theorem C152_accepted_table_wellformed :
  forall D (d0 : D) stod stoi txt t showd showi (more : list (op D)),
  (forall x, stod x <> UB) -> (forall x, stoi x <> UB) ->
  read d0 stod stoi txt = Ok t ->
  NoDup (col_names t) /\ (forall c, In c (data_d t) -> length c = len t)
  /\ (forall c, In c (data_i t) -> length c = len t) /\ (forall c, In c (data_s t) -> length c = len t)
  /\ ~ In OUB (snd (run d0 stod stoi showd showi more t)).
Proof.
  intros D d0 stod stoi txt t showd showi more Hd Hi E.
  destruct (read_wf d0 stod stoi showd showi Hd Hi txt t E) as [a H].
  split; [rewrite (r_names _ _ _ H); apply (r_nodup _ _ _ H)|].
  split; [apply (cr_len _ _ _ _ _ _ _ _ (r_d _ _ _ H))|].
  split; [apply (cr_len _ _ _ _ _ _ _ _ (r_i _ _ _ H))|].
  split; [apply (cr_len _ _ _ _ _ _ _ _ (r_s _ _ _ H))|].
  eapply run_no_ub; eassumption.
Qed.
Print Assumptions C152_accepted_table_wellformed.

Example C58_case :
  let txt := of_string "@ N %d 4

* A B
$ %d %s
1 ""x y""
" in
  (exists pre nl tl post w0 names, fst (lines txt) = pre ++ nl :: tl :: post /\ Forall header_line pre /\
     split_line nl = w0 :: names /\ w0 <> of_string "@" /\ split_line tl <> [])
  /\ exists t, read 0%Z readz readz txt = Ok t /\ len t = 1 /\ holds t (of_string "B") 0 (VS (of_string "x y")).
Proof.
  split.
  - exists [of_string "@ N %d 4"; []], (of_string "* A B"), (of_string "$ %d %s"), [of_string "1 ""x y"""],
      (of_string "*"), [of_string "A"; of_string "B"].
    split; [reflexivity|]. split; [|split; [reflexivity|split; discriminate]].
    constructor; [right; eexists; vm_compute; reflexivity|]. constructor; [left; reflexivity|constructor].
  - eexists. split; [vm_compute; reflexivity|]. split; vm_compute; reflexivity.
Qed.
