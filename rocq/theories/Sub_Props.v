(** C126: the programs MSD and ISF. *)
Require Import String.
Require Import ZArith QArith List Arith Ascii Bool Lia.
Require Import Verif.Base Verif.Dec Verif.ListX Verif.RTree_Model Verif.Traj_Model Verif.Traj_Spec Verif.Traj_Proofs Verif.Cluster_Spec Verif.Particles_Model Verif.Dyn_Spec Verif.Corr_Model Verif.Corr_Props Verif.Isf_Model Verif.Isf_Props Verif.Export_Model Verif.Relax_Model Verif.Relax_Props Verif.Jump_Props Verif.Sub_Model.
Import ListNotations.
Local Open Scope nat_scope.
Local Open Scope list_scope.

(** Arguments of the command line for triples of times *)
Definition args_of (l : list (nat * nat * nat)) : list Z := flat_map (fun x => let '(a, b, c) := x in [Z.of_nat a; Z.of_nat b; Z.of_nat c]) l.
(** The interval is in the movie, with the averaging after it. *)
Definition in_movie (n : nat) (x : nat * nat * nat) : Prop := let '(a, b, c) := x in a < n /\ b + c < n.

(** What a file holds: a title, then for each lag its time and the value. *)
Definition sub_text {V} (show : V -> text) (timeof : nat -> V) (col : text) (vs : list V) : text :=
  txt "#t" ++ [tab] ++ col ++ [newline] ++ flat_map (fun t => match nth_error vs t with Some v => show (timeof t) ++ [tab] ++ show v ++ [newline] | None => [] end) (seq 0 (List.length vs)).


Section Files.
  Variables (V : Type) (show : V -> text) (timeof : nat -> V) (compute : nat -> nat -> nat -> outcome (list V)).
  Variables (stem ext col : text) (nframes : nat).
  Local Notation runs := (sub_runs V show timeof compute stem ext col nframes).
  (** The name of the file of a triple *)
  Definition name_of (x : nat * nat * nat) : text := let '(a, b, c) := x in stem ++ txt "_" ++ print_nat a ++ txt "from_" ++ print_nat b ++ txt "to_" ++ print_nat c ++ txt "av" ++ ext.

  Lemma column_text vs : program_column V show timeof col vs = Val (sub_text show timeof col vs).
  Proof.
    unfold program_column, sub_text. destruct vs as [|v0 vs']; [reflexivity|]. set (vs := v0 :: vs'). rewrite (dyn_rows_ok V v0 show timeof [vs]) by (repeat constructor). cbn [omap]. f_equal. cbn [app].
    assert (E : flat_map (row_text V v0 show timeof [vs]) (seq 0 (List.length vs)) = flat_map (fun t => match nth_error vs t with Some v => show (timeof t) ++ tab :: show v ++ [newline] | None => [] end) (seq 0 (List.length vs))); [|rewrite E; reflexivity].
    rewrite !flat_map_concat_map. f_equal. apply map_ext_in. intros t Ht. apply in_seq in Ht. rewrite (nth_error_nth' vs v0) by lia. unfold row_text. cbn [flat_map]. rewrite app_nil_r. reflexivity.
  Qed.
  Lemma to_size_nat a : (Z.of_nat a < 2 ^ 64)%Z -> to_size (Z.of_nat a) = Z.of_nat a.
  Proof. intros H. unfold to_size. apply Z.mod_small. lia. Qed.
  Lemma small_mod z : (0 <= z < 2 ^ 64)%Z -> (z mod 2 ^ 64 = z)%Z. Proof. apply Z.mod_small. Qed.
  Lemma through_yes x : (Z.of_nat nframes < 2 ^ 31)%Z -> in_movie nframes x -> let '(a, b, c) := x in let_through nframes (Z.of_nat a) (Z.of_nat b) (Z.of_nat c) = true.
  Proof.
    destruct x as [[a b] c]. intros Hn [H1 H2]. unfold let_through. rewrite !small_mod by lia.
    rewrite (proj2 (Z.ltb_ge _ _)) by lia. rewrite (proj2 (Z.ltb_ge _ _)) by lia. reflexivity.
  Qed.
  Lemma through_no a b c : (Z.of_nat a < 2 ^ 31)%Z -> (Z.of_nat b < 2 ^ 31)%Z -> (Z.of_nat c < 2 ^ 31)%Z -> ~ in_movie nframes (a, b, c) -> let_through nframes (Z.of_nat a) (Z.of_nat b) (Z.of_nat c) = false.
  Proof.
    intros Ha Hb Hc Hm. unfold let_through. rewrite !small_mod by lia. destruct (Nat.lt_ge_cases a nframes) as [H1|H1].
    - assert (H2 : nframes <= b + c) by (destruct (Nat.lt_ge_cases (b + c) nframes); auto; exfalso; apply Hm; split; auto).
      rewrite (proj2 (Z.ltb_ge _ (_ + 1))) by lia. rewrite (proj2 (Z.ltb_lt _ _)) by lia. reflexivity.
    - rewrite (proj2 (Z.ltb_lt _ _)) by lia. reflexivity.
  Qed.

  (** Triples in the movie, whose function is [f]: one file each; then the program does what the rest of the arguments says. *)
  Lemma runs_good (f : nat * nat * nat -> list V) l rest : (Z.of_nat nframes < 2 ^ 31)%Z -> Forall (fun x => in_movie nframes x /\ let '(a, b, c) := x in compute a b c = Val (f x)) l ->
    runs (args_of l ++ rest) = (map (fun x => (name_of x, sub_text show timeof col (f x))) l ++ fst (runs rest), snd (runs rest)).
  Proof.
    intros Hn. induction 1 as [|[[a b] c] l [Hm Hc] _ IH]; [cbn; destruct (runs rest); reflexivity|].
    assert (Hs : (Z.of_nat a < 2 ^ 64)%Z /\ (Z.of_nat b < 2 ^ 64)%Z /\ (Z.of_nat c < 2 ^ 64)%Z) by (destruct Hm; lia). destruct Hs as [Ha [Hb Hcc]].
    assert (Y := through_yes (a, b, c) Hn Hm). cbn beta iota in Y. cbn [args_of flat_map app]. cbn [sub_runs]. rewrite !to_size_nat by auto. rewrite Y, !Nat2Z.id, Hc. cbn [obind]. rewrite column_text.
    change (flat_map _ l ++ rest) with (args_of l ++ rest). rewrite IH. cbn [map fst snd app]. do 2 f_equal. unfold name_of, sub_name, print_nat. rewrite <- !nat_N_Z, !N2Z.id. reflexivity.
  Qed.

  (** C126.  Intervals in the movie: one file for each, whose name tells the three numbers, and whose rows are the lags and the values; the
      arguments left over (one or two) are not used. *)
  Theorem C126_files (f : nat * nat * nat -> list V) l left : (Z.of_nat nframes < 2 ^ 31)%Z -> List.length left < 3 ->
    Forall (fun x => in_movie nframes x /\ let '(a, b, c) := x in compute a b c = Val (f x)) l ->
    runs (args_of l ++ left) = (map (fun x => (name_of x, sub_text show timeof col (f x))) l, Finished).
  Proof.
    intros Hn Hl H. rewrite (runs_good f) by auto. assert (E : runs left = ([], Finished)) by (destruct left as [|x [|y [|z ?]]]; try reflexivity; cbn in Hl; lia).
    rewrite E. cbn [fst snd]. rewrite app_nil_r. reflexivity.
  Qed.
  (** The first interval out of the movie, or too long for all trajectories, ends the program with an error: the files of the intervals before
      it are there, the others not. *)
  Theorem C126_stops (f : nat * nat * nat -> list V) l a b c rest : (Z.of_nat nframes < 2 ^ 31)%Z ->
    Forall (fun x => in_movie nframes x /\ let '(a, b, c) := x in compute a b c = Val (f x)) l ->
    (Z.of_nat a < 2 ^ 31)%Z -> (Z.of_nat b < 2 ^ 31)%Z -> (Z.of_nat c < 2 ^ 31)%Z -> ~ in_movie nframes (a, b, c) \/ compute a b c = Throw ->
    runs (args_of (l ++ [(a, b, c)]) ++ rest) = (map (fun x => (name_of x, sub_text show timeof col (f x))) l, Failed).
  Proof.
    intros Hn H Ha Hb Hc Hbad. unfold args_of. rewrite flat_map_app, <- app_assoc. fold (args_of l). rewrite (runs_good f) by auto.
    assert (E : runs (flat_map (fun x => let '(a, b, c) := x in [Z.of_nat a; Z.of_nat b; Z.of_nat c]) [(a, b, c)] ++ rest) = ([], Failed)).
    { cbn [flat_map app sub_runs]. rewrite !to_size_nat by lia. destruct (let_through nframes (Z.of_nat a) (Z.of_nat b) (Z.of_nat c)) eqn:E; [|reflexivity].
      destruct Hbad as [Hm|Ht]; [rewrite through_no in E by auto; discriminate|]. rewrite !Nat2Z.id, Ht. reflexivity. }
    rewrite E. cbn [fst snd]. rewrite app_nil_r. reflexivity.
  Qed.

  Lemma digits_split u v c1 w1 c2 w2 : forallb is_digit u = true -> forallb is_digit v = true -> is_digit c1 = false -> is_digit c2 = false ->
    u ++ c1 :: w1 = v ++ c2 :: w2 -> u = v /\ c1 :: w1 = c2 :: w2.
  Proof.
    intros Hu Hv H1 H2 E. assert (A := span_while_app is_digit u (c1 :: w1) Hu H1). assert (B := span_while_app is_digit v (c2 :: w2) Hv H2). rewrite E, B in A. inversion A; auto.
  Qed.
  Lemma print_nat_inj a b : print_nat a = print_nat b -> a = b.
  Proof.
    unfold print_nat. intros E. destruct (print_N_ok (N.of_nat a)) as [_ [_ Ea]]. destruct (print_N_ok (N.of_nat b)) as [_ [_ Eb]]. rewrite E in Ea. rewrite Ea in Eb. lia.
  Qed.
  (** Two different triples never share a file. *)
  Theorem C126_names x y : name_of x = name_of y -> x = y.
  Proof.
    destruct x as [[a b] c], y as [[a' b'] c']. unfold name_of. intros E. apply app_inv_head in E. apply app_inv_head in E.
    assert (D : forall n, forallb is_digit (print_nat n) = true) by (intros n; apply print_N_ok).
    cbn [txt list_ascii_of_string app] in E. apply digits_split in E; auto. destruct E as [E1 E]. apply print_nat_inj in E1. injection E as E.
    apply digits_split in E; auto. destruct E as [E2 E]. apply print_nat_inj in E2. injection E as E.
    apply digits_split in E; auto. destruct E as [E3 E]. apply print_nat_inj in E3. congruence.
  Qed.
  (** A start of -1 is never refused: the library is called with the start 2^64-1, whatever the movie, and only its own exception can end the run. *)
  Theorem C126_negative_refuted b c : b + c < nframes -> (Z.of_nat nframes < 2 ^ 31)%Z ->
    (snd (runs [(-1)%Z; Z.of_nat b; Z.of_nat c]) = Failed <-> compute (Z.to_nat (2 ^ 64 - 1)) b c = Throw) /\
    forall vs, compute (Z.to_nat (2 ^ 64 - 1)) b c = Val vs -> snd (runs [(-1)%Z; Z.of_nat b; Z.of_nat c]) = Finished /\ map snd (fst (runs [(-1)%Z; Z.of_nat b; Z.of_nat c])) = [sub_text show timeof col vs].
  Proof.
    intros Hm Hn. cbn [sub_runs]. rewrite !to_size_nat by lia. change (to_size (-1)) with (2 ^ 64 - 1)%Z. unfold let_through. change ((2 ^ 64 - 1 + 1) mod 2 ^ 64)%Z with 0%Z.
    rewrite small_mod by lia. rewrite !(proj2 (Z.ltb_ge _ _)) by lia. cbn [orb negb]. rewrite !Nat2Z.id. destruct (compute (Z.to_nat (2 ^ 64 - 1)) b c) as [vs| |]; cbn [obind].
    - rewrite column_text. cbn [fst snd map]. split; [split; discriminate|]. intros vs' E. inversion E; auto.
    - cbn. split; [tauto|]. discriminate.
    - cbn. split; [split; discriminate|]. discriminate.
  Qed.
End Files.

Section Programs.
  Variables (P V : Type) (zero : V) (add : V -> V -> V) (divn : V -> nat -> V) (muln : nat -> V -> V) (sqd : P -> P -> V).
  Variables (Wave : Type) (axis : nat -> P -> Wave) (cross : Wave -> Wave -> V) (one : V).
  Variables (show : V -> text) (timeof : nat -> V) (frames : list (list P)) (ti : trajindex) (stem : text).
  Local Notation msd := (msd_program P V zero add divn muln sqd show timeof frames ti stem).
  Local Notation isf := (isf_program P V zero add divn muln Wave axis cross one show timeof frames ti stem).

  Lemma same_frames : map (@List.length P) frames = map (@List.length nat) (inverse ti) -> List.length frames = List.length (inverse ti).
  Proof. intros H. rewrite <- (map_length (@List.length P) frames), H, map_length. auto. Qed.

  (** C126.  MSD, interval [a,b], averaging c > a: the rows are the means over the windows that begin from a to c-1 (so c windows only when a is
      zero), each over the trajectories that span it. *)
  Theorem C126_msd a b c T : consistent ti -> map (@List.length P) frames = map (@List.length nat) (inverse ti) -> (Z.of_nat (List.length frames) < 2 ^ 31)%Z ->
    a <= b -> a < c -> b + c < List.length frames -> In T (trajs ti) -> b - a < List.length (steps T) ->
    exists sels singles vs,
      (forall s, a <= s < c -> (forall tr, In tr (sels s) <-> exists T, nth_error (trajs ti) tr = Some T /\ spans T s (s + (b - a))) /\ NoDup (sels s) /\
         get_msd P V zero add divn sqd frames ti (sels s) s (s + (b - a)) 1 = Val (singles s)) /\
      msd [Z.of_nat a; Z.of_nat b; Z.of_nat c] = ([(name_of stem (txt ".msd") (a, b, c), sub_text show timeof (txt "MSD") vs)], Finished) /\ List.length vs = b - a + 1 /\
      forall dt, dt <= b - a -> nth_error vs dt = Some (divn (fold_left add (map (fun s => muln (List.length (sels s)) (nth dt (singles s) zero)) (seq a (c - a))) zero) (list_sum (map (fun s => List.length (sels s)) (seq a (c - a))))).
  Proof.
    intros Hc Hsh Hn Hab Hac Hbc HT HTl. assert (Hl := same_frames Hsh). destruct (C49_msd_windows P V zero add divn muln sqd frames ti a b c T Hc Hsh) as [sels [singles [vs [Hs [E [L F]]]]]]; auto; [lia|].
    exists sels, singles, vs. split; [|split; [|split; auto]].
    - intros s Hss. destruct (Hs s Hss) as [H1 [H2 [H3 _]]]. auto.
    - unfold msd_program, sub_main. cbn [List.length Nat.ltb Nat.leb].
      apply (C126_files V show timeof (get_msd_avg P V zero add divn muln sqd frames ti) stem (txt ".msd") (txt "MSD") (List.length frames) (fun _ => vs) [(a, b, c)] []); [exact Hn|cbn; lia|].
      repeat constructor; auto. lia.
  Qed.
  (** ISF: the same, over the three axes, without the longest lag. *)
  Theorem C126_isf a b c T : consistent ti -> map (@List.length P) frames = map (@List.length nat) (inverse ti) -> (Z.of_nat (List.length frames) < 2 ^ 31)%Z ->
    a < b -> a < c -> b + c < List.length frames -> In T (trajs ti) -> b - a < List.length (steps T) ->
    exists sels singles vs, windows_are P V zero add divn Wave axis cross one frames ti (b - a) a c sels singles /\
      isf [Z.of_nat a; Z.of_nat b; Z.of_nat c] = ([(name_of stem (txt ".isf") (a, b, c), sub_text show timeof (txt "ISF") vs)], Finished) /\ List.length vs = b - a /\
      forall dt, dt < b - a -> nth_error vs dt =
        Some (divn (fold_left add (flat_map (fun s => map (fun d => muln (List.length (sels s)) (nth dt (singles s d) zero)) [0; 1; 2]) (seq a (c - a))) zero) (list_sum (map (fun s => List.length (sels s)) (seq a (c - a))) * 3)).
  Proof.
    intros Hc Hsh Hn Hab Hac Hbc HT HTl. assert (Hl := same_frames Hsh). destruct (C83_axes P V zero add divn muln Wave axis cross one frames ti a b c T Hc Hsh) as [sels [singles [vs [Hs [E [L F]]]]]]; auto; [lia|].
    exists sels, singles, vs. split; auto. split; [|split; auto]. unfold isf_program, sub_main. cbn [List.length Nat.ltb Nat.leb].
    apply (C126_files V show timeof (self_isf_axes P V zero add divn muln Wave axis cross one frames ti) stem (txt ".isf") (txt "ISF") (List.length frames) (fun _ => vs) [(a, b, c)] []); [exact Hn|cbn; lia|].
    repeat constructor; auto. lia.
  Qed.
  (** An interval that does not begin before the averaging is accepted, and every row of its file is a division of zero by zero. *)
  Theorem C126_late_refuted a b c T : (Z.of_nat (List.length frames) < 2 ^ 31)%Z -> a <= b -> 0 < c <= a -> b + c < List.length frames -> In T (trajs ti) -> b - a < List.length (steps T) ->
    msd [Z.of_nat a; Z.of_nat b; Z.of_nat c] = ([(name_of stem (txt ".msd") (a, b, c), sub_text show timeof (txt "MSD") (repeat (divn zero 0) (b - a + 1)))], Finished).
  Proof.
    intros Hn Hab Hac Hbc HT HTl. unfold msd_program, sub_main. cbn [List.length Nat.ltb Nat.leb].
    apply (C126_files V show timeof (get_msd_avg P V zero add divn muln sqd frames ti) stem (txt ".msd") (txt "MSD") (List.length frames) (fun _ => repeat (divn zero 0) (b - a + 1)) [(a, b, c)] []); [exact Hn|cbn; lia|].
    repeat constructor; [lia|auto|]. apply (C49_msd_windows_refuted P V zero add divn muln sqd frames ti a b c T); auto.
  Qed.
  (** Without averaging, ISF reads out of its array for every interval that it accepts. *)
  Theorem C126_no_average_refuted a b T rest : consistent ti -> map (@List.length P) frames = map (@List.length nat) (inverse ti) -> (Z.of_nat (List.length frames) < 2 ^ 31)%Z ->
    a <= b < List.length frames -> In T (trajs ti) -> b - a < List.length (steps T) -> isf (Z.of_nat a :: Z.of_nat b :: 0%Z :: rest) = ([], Undefined).
  Proof.
    intros Hc Hsh Hn Hab HT HTl. assert (Hl := same_frames Hsh). unfold isf_program, sub_main. cbn [List.length Nat.ltb Nat.leb]. cbn [sub_runs].
    change (to_size 0) with (Z.of_nat 0). rewrite !to_size_nat by lia. rewrite (through_yes (List.length frames) (a, b, 0)) by (auto; split; lia). rewrite !Nat2Z.id.
    rewrite (proj2 (C83_default_refuted P V zero add divn muln Wave axis cross one frames ti 0 a b T Hc Hsh ltac:(lia) HT HTl)). reflexivity.
  Qed.
  (** C126.  ISF needs two arguments after the name of the file, MSD none; with fewer than three both write no file. *)
  Theorem C126_few_arguments args :
    (List.length args < 2 -> isf args = ([], Failed)) /\ (List.length args = 2 -> isf args = ([], Finished)) /\ (List.length args < 3 -> msd args = ([], Finished)).
  Proof. split; [|split]; intros H; destruct args as [|x [|y [|z l]]]; cbn in H; try lia; reflexivity. Qed.
End Programs.

(** A case: one particle that moves by one at each of five steps; two intervals, and a last one out of the movie; two arguments left over. *)
Definition sub_ti : trajindex := mkIndex [mkTraj 0 [0; 0; 0; 0; 0; 0]] [[0]; [0]; [0]; [0]; [0]; [0]].
Definition sub_frames : list (list Z) := [[0]; [1]; [2]; [3]; [4]; [5]]%Z.
Definition sub_show (v : Z) : text := print_N (Z.to_N v).
Local Notation ex_msd := (msd_program Z Z 0%Z Z.add (fun v n => (v / Z.of_nat n)%Z) (fun n v => (Z.of_nat n * v)%Z) (fun a b => ((a - b) * (a - b))%Z) sub_show Z.of_nat sub_frames sub_ti (txt "m")).
Example C126_case :
  ex_msd [0; 2; 2; 1; 2; 2; 7; 8]%Z = ([(txt "m_0from_2to_2av.msd", txt "#t" ++ [tab] ++ txt "MSD" ++ [newline] ++ txt "0" ++ [tab] ++ txt "0" ++ [newline] ++ txt "1" ++ [tab] ++ txt "1" ++ [newline] ++ txt "2" ++ [tab] ++ txt "4" ++ [newline]);
     (txt "m_1from_2to_2av.msd", txt "#t" ++ [tab] ++ txt "MSD" ++ [newline] ++ txt "0" ++ [tab] ++ txt "0" ++ [newline] ++ txt "1" ++ [tab] ++ txt "1" ++ [newline])], Finished) /\
  snd (ex_msd [0; 2; 2; 0; 4; 2]%Z) = Failed /\ List.length (fst (ex_msd [0; 2; 2; 0; 4; 2]%Z)) = 1 /\ consistent sub_ti.
Proof. split; [vm_compute; reflexivity|]. split; [vm_compute; reflexivity|]. split; [vm_compute; reflexivity|]. apply consb_ok. vm_compute. reflexivity. Qed.

Print Assumptions C126_files.
Print Assumptions C126_stops.
Print Assumptions C126_names.
Print Assumptions C126_negative_refuted.
Print Assumptions C126_msd.
Print Assumptions C126_isf.
Print Assumptions C126_late_refuted.
Print Assumptions C126_no_average_refuted.
Print Assumptions C126_few_arguments.
