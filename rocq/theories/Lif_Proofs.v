(** Proofs about the parser of .lif files. *)
Require Import List Bool Arith ZArith Lia.
Require Import Verif.ListX Verif.Lif_Model Verif.Lif_Spec.
Import ListNotations.
Local Open Scope Z_scope.

Lemma bytes_of_length : forall n v, length (bytes_of n v) = n.
Proof. induction n; cbn; auto. Qed.
Lemma le_bytes_of : forall n v, 0 <= v < 256 ^ Z.of_nat n -> le (bytes_of n v) = v.
Proof.
  induction n; intros v H; cbn [bytes_of le].
  - cbn in H. lia.
  - rewrite Nat2Z.inj_succ, Z.pow_succ_r in H by lia. rewrite IHn.
    + pose proof (Z.div_mod v 256). lia.
    + split; [apply Z.div_pos; lia|apply Z.div_lt_upper_bound; lia].
Qed.
Lemma chars_length : forall l, Z.of_nat (length (chars l)) = 2 * Z.of_nat (length l).
Proof. induction l as [|[a b] l IH]; auto. cbn [chars flat_map app length] in *. unfold chars in IH. lia. Qed.
Lemma every_second_chars : forall l, every_second (chars l) = map fst l.
Proof. induction l as [|[a b] l IH]; auto. cbn [chars flat_map app map fst snd every_second]. f_equal. exact IH. Qed.

Definition at_ (n : nat) : stream := mkStream (Z.of_nat n) false.
Lemma rest_at : forall pre suf, rest (pre ++ suf) (at_ (length pre)) = suf.
Proof. intros. unfold rest, at_. cbn [pos]. rewrite Nat2Z.id, skipn_app, skipn_all, Nat.sub_diag. auto. Qed.
Lemma read_at : forall pre bs post, read (pre ++ bs ++ post) (Z.of_nat (length bs)) (at_ (length pre)) = (bs, at_ (length (pre ++ bs))).
Proof.
  intros. unfold read. cbn [failed at_]. rewrite rest_at, Nat2Z.id, firstn_app, firstn_all, Nat.sub_diag, firstn_O, app_nil_r. rewrite Z.eqb_refl. cbn [negb].
  unfold at_. cbn [pos]. rewrite app_length. f_equal. f_equal. lia.
Qed.
Lemma read_number_at : forall pre n v post, 0 <= v < 256 ^ Z.of_nat n -> read_number (pre ++ bytes_of n v ++ post) (Z.of_nat n) (at_ (length pre)) = Ok (v, at_ (length (pre ++ bytes_of n v))).
Proof. intros. unfold read_number. replace (Z.of_nat n) with (Z.of_nat (length (bytes_of n v))) by now rewrite bytes_of_length. rewrite read_at. cbn [failed at_]. now rewrite le_bytes_of. Qed.
Lemma seek_at : forall n k, 0 <= k -> seek_cur k (at_ n) = at_ (n + Z.to_nat k).
Proof. intros. unfold seek_cur, seek_to, at_. cbn [pos failed]. destruct (Z.ltb_spec (Z.of_nat n + k) 0); [lia|]. f_equal. lia. Qed.
Lemma get_char_at : forall pre b post c, is_space b = false -> get_char (pre ++ [b] ++ post) c (at_ (length pre)) = (Some b, at_ (length (pre ++ [b]))).
Proof. intros. unfold get_char. cbn [failed at_]. rewrite rest_at. cbn [next_char app]. rewrite H. unfold at_. cbn [pos]. rewrite app_length. cbn. f_equal. f_equal. lia. Qed.
Lemma find_test_at : forall g p post, ~ In 42 g -> find_test_code (g ++ [42] ++ post) p = Some (p + Z.of_nat (length g) + 1).
Proof.
  induction g as [|b g IH]; intros p post N; cbn [app find_test_code length]; unfold test_code in *.
  - rewrite Z.eqb_refl. f_equal. cbn. lia.
  - destruct (Z.eqb_spec b 42). { destruct N. left. auto. } change (42 :: post) with ([42] ++ post). rewrite IH by (intro; apply N; right; auto). f_equal. lia.
Qed.
Lemma find_test_none : forall g p, ~ In 42 g -> find_test_code g p = None.
Proof. induction g as [|b g IH]; intros p N; cbn [find_test_code]; auto. unfold test_code. destruct (Z.eqb_spec b 42). { destruct N. left. auto. } apply IH. intro; apply N; right; auto. Qed.
Lemma size_app : forall a b, size (a ++ b) = size a + size b.
Proof. intros. unfold size. rewrite app_length. lia. Qed.
Lemma tell_at : forall n, tellg (at_ n) = Z.of_nat n.
Proof. reflexivity. Qed.

Section Reader.
Variable H : Type.
Variable file : list Z.

(** What the reader does from the beginning of a block up to its size: the beginning is common to whole and to cut blocks. *)
Lemma block_begin : forall fuel v hs pre u ms post acc, length u = 4%nat -> 0 <= ms < 256 ^ Z.of_nat (size_bytes v) ->
  file = pre ++ bytes_of 4 112 ++ u ++ [42] ++ bytes_of (size_bytes v) ms ++ post ->
  blocks H file (S fuel) v hs (Some test_code) (at_ (length pre)) acc =
  let pre' := pre ++ bytes_of 4 112 ++ u ++ [42] ++ bytes_of (size_bytes v) ms in
  match find_test_code post (Z.of_nat (length pre')) with
  | None => Hangs
  | Some p =>
    bind (read_number file 4 (mkStream p false)) (fun '(n, s) =>
          let s := seek_cur ((n * 2) mod two32) s in
          if 0 <? ms then
            match hs with
            | [] => Refused
            | h :: hs' =>
                bind (lif_serie H file h (tellg s) ms) (fun e =>
                blocks H file fuel v hs' (Some test_code) (seek_cur (to_long ms) s) (acc ++ [e]))
            end
          else blocks H file fuel v hs (Some test_code) s acc)
  end.
Proof.
  intros fuel v hs pre u ms post acc Lu Hms E. cbn [blocks]. rewrite tell_at.
  destruct (Z.ltb_spec (Z.of_nat (length pre)) (size file)) as [_|Hp].
  2:{ exfalso. rewrite E, !size_app in Hp. unfold size in Hp. rewrite bytes_of_length in Hp. lia. }
  change (read_number file 4) with (read_number file (Z.of_nat 4)). rewrite E at 1. rewrite read_number_at by (cbn; lia). unfold bind at 1.
  change (negb (112 =? mem_block_code)) with false. cbv iota.
  rewrite seek_at by lia.
  replace (length (pre ++ bytes_of 4 112) + Z.to_nat 4)%nat with (length ((pre ++ bytes_of 4 112) ++ u)) by (rewrite (app_length _ u), Lu; reflexivity).
  rewrite E at 1. replace (pre ++ bytes_of 4 112 ++ u ++ [42] ++ bytes_of (size_bytes v) ms ++ post) with (((pre ++ bytes_of 4 112) ++ u) ++ [42] ++ bytes_of (size_bytes v) ms ++ post) at 1 by now rewrite <- !app_assoc.
  rewrite get_char_at by reflexivity. change (negb (42 =? test_code)) with false. cbv iota beta.
  replace (if 2 <=? v then 8 else 4) with (Z.of_nat (size_bytes v)) by (unfold size_bytes; destruct (2 <=? v); reflexivity).
  rewrite E at 1. replace (pre ++ bytes_of 4 112 ++ u ++ [42] ++ bytes_of (size_bytes v) ms ++ post) with ((((pre ++ bytes_of 4 112) ++ u) ++ [42]) ++ bytes_of (size_bytes v) ms ++ post) at 1 by now rewrite <- !app_assoc.
  rewrite read_number_at by auto. unfold bind at 1.
  assert (Er : rest file (at_ (length ((((pre ++ bytes_of 4 112) ++ u) ++ [42]) ++ bytes_of (size_bytes v) ms))) = post).
  { rewrite E. replace (pre ++ bytes_of 4 112 ++ u ++ [42] ++ bytes_of (size_bytes v) ms ++ post) with (((((pre ++ bytes_of 4 112) ++ u) ++ [42]) ++ bytes_of (size_bytes v) ms) ++ post) by now rewrite <- !app_assoc. apply rest_at. }
  rewrite Er. cbn [pos at_]. rewrite <- !app_assoc. reflexivity.
Qed.

Lemma block_step : forall fuel v hs pre b post acc, good_block v b -> file = pre ++ prefix v b ++ post ->
  blocks H file (S fuel) v hs (Some test_code) (at_ (length pre)) acc =
  let s := at_ (length (pre ++ prefix v b)) in let ms := Z.of_nat (length (data b)) in
  if 0 <? ms then
            match hs with
            | [] => Refused
            | h :: hs' =>
                bind (lif_serie H file h (tellg s) ms) (fun e =>
                blocks H file fuel v hs' (Some test_code) (seek_cur (to_long ms) s) (acc ++ [e]))
            end
  else blocks H file fuel v hs (Some test_code) s acc.
Proof.
  intros fuel v hs pre b post acc (Lu & Ng & Hd & Hs) E. set (post1 := gap b ++ [42] ++ bytes_of 4 (Z.of_nat (length (description b))) ++ chars (description b) ++ post).
  rewrite (block_begin fuel v hs pre (unused b) (Z.of_nat (length (data b))) post1 acc Lu).
  2: lia.
  2:{ rewrite E. unfold prefix, post1. rewrite <- !app_assoc. reflexivity. }
  cbv zeta. unfold post1. rewrite find_test_at by auto.
  set (pre' := pre ++ bytes_of 4 112 ++ unused b ++ [42] ++ bytes_of (size_bytes v) (Z.of_nat (length (data b)))).
  replace (mkStream (Z.of_nat (length pre') + Z.of_nat (length (gap b)) + 1) false) with (at_ (length (pre' ++ gap b ++ [42]))).
  2:{ unfold at_. rewrite !app_length. cbn [length]. f_equal. lia. }
  assert (E2 : file = (pre' ++ gap b ++ [42]) ++ bytes_of 4 (Z.of_nat (length (description b))) ++ chars (description b) ++ post).
  { rewrite E. unfold prefix, pre'. rewrite <- !app_assoc. reflexivity. }
  change (read_number file 4) with (read_number file (Z.of_nat 4)). rewrite E2 at 1. rewrite read_number_at by (cbn; lia). unfold bind at 1.
  rewrite Z.mod_small by (unfold two32; lia). rewrite seek_at by lia.
  replace (length ((pre' ++ gap b ++ [42%Z]) ++ bytes_of 4 (Z.of_nat (length (description b)))) + Z.to_nat (Z.of_nat (length (description b)) * 2)%Z)%nat with (length (pre ++ prefix v b)).
  2:{ pose proof (chars_length (description b)). unfold prefix, pre'. rewrite !app_length. lia. }
  reflexivity.
Qed.
End Reader.

(** What is found in a well-formed file: the position of the data of each non-empty block. *)
Fixpoint found {H} (v : Z) (p : nat) (bs : list block) (hs : list H) : list (H * Z * Z) :=
  match bs with
  | [] => []
  | b :: bs' =>
      let q := (p + length (prefix v b))%nat in
      match data b with
      | [] => found v q bs' hs
      | _ => match hs with [] => [] | h :: hs' => (h, Z.of_nat q, Z.of_nat (length (data b))) :: found v (q + length (data b)) bs' hs' end
      end
  end.

Lemma prefix_length : forall v b, (length (prefix v b) >= 14)%nat.
Proof. intros. unfold prefix. rewrite !app_length, !bytes_of_length. cbn [length]. unfold size_bytes. destruct (2 <=? v); lia. Qed.

Lemma blocks_found : forall (H : Type) v bs file pre post (hs : list H) fuel acc, Forall (good_block v) bs -> file = pre ++ encode_all v bs ++ post -> size file < two63 ->
  (length (non_empty bs) <= length hs)%nat -> (length bs <= fuel)%nat ->
  blocks H file fuel v hs (Some test_code) (at_ (length pre)) acc =
  blocks H file (fuel - length bs) v (skipn (length (non_empty bs)) hs) (Some test_code) (at_ (length (pre ++ encode_all v bs))) (acc ++ found v (length pre) bs hs).
Proof.
  intros H v bs. induction bs as [|b bs IH]; intros file pre post hs fuel acc G E Hs Hh Hf.
  - cbn [found encode_all flat_map non_empty filter length skipn] in *. rewrite !app_nil_r, Nat.sub_0_r. auto.
  - inversion G as [|? ? Gb Gbs]; subst x l. cbn [length] in Hf. destruct fuel as [|fuel]; [lia|].
    assert (E1 : file = pre ++ prefix v b ++ (data b ++ encode_all v bs ++ post)). { rewrite E. unfold encode_all. cbn [flat_map]. unfold encode at 1. rewrite <- !app_assoc. reflexivity. }
    rewrite (block_step H file fuel v hs pre b _ acc Gb E1). cbv zeta. rewrite tell_at.
    destruct (Z.ltb_spec 0 (Z.of_nat (length (data b)))) as [Ln|Ln].
    2:{ assert (Ed : data b = []) by (destruct (data b); auto; cbn [length] in Ln; lia).
      assert (Ne : non_empty (b :: bs) = non_empty bs) by (unfold non_empty; cbn [filter]; now rewrite Ed). rewrite Ne in *. clear Ne.
      rewrite Ed in E1. cbn [app] in E1.
      rewrite (IH file (pre ++ prefix v b) post) by (auto; try lia; rewrite E1; rewrite <- !app_assoc; reflexivity).
      replace (fuel - length bs)%nat with (S fuel - S (length bs))%nat by lia. rewrite (app_length pre (prefix v b)).
      replace ((pre ++ prefix v b) ++ encode_all v bs) with (pre ++ encode_all v (b :: bs)) by (unfold encode_all; cbn [flat_map]; unfold encode at 1; rewrite Ed, app_nil_r, <- app_assoc; reflexivity). cbn [found length]. rewrite Ed. reflexivity. }
    { assert (Ne : non_empty (b :: bs) = b :: non_empty bs) by (unfold non_empty; cbn [filter]; destruct (data b); auto; cbn in Ln; lia). rewrite Ne in *. clear Ne. cbn [length] in Hh. destruct hs as [|h hs]; [cbn in Hh; lia|].
      assert (Ef : found v (length pre) (b :: bs) (h :: hs) = (h, Z.of_nat (length (pre ++ prefix v b)), Z.of_nat (length (data b))) :: found v (length (pre ++ prefix v b) + length (data b)) bs hs).
      { cbn [found]. rewrite app_length. destruct (data b); auto. cbn in Ln. lia. } rewrite Ef. clear Ef.
      unfold lif_serie.
      assert (Z1 : size file = Z.of_nat (length (pre ++ prefix v b)) + Z.of_nat (length (data b)) + size (encode_all v bs ++ post)).
      { rewrite E1. rewrite !size_app. unfold size. rewrite app_length. lia. }
      assert (0 <= size (encode_all v bs ++ post)) by (unfold size; lia).
      destruct (Z.leb_spec (size file) (Z.of_nat (length (pre ++ prefix v b)))); [lia|].
      rewrite Z.mod_small by (unfold two64, two63 in *; lia).
      destruct (Z.ltb_spec (size file) (Z.of_nat (length (pre ++ prefix v b)) + Z.of_nat (length (data b)))); [lia|]. unfold bind at 1.
      replace (to_long (Z.of_nat (length (data b)))) with (Z.of_nat (length (data b))).
      2:{ unfold to_long. rewrite Z.mod_small; unfold two64, two63 in *; lia. }
      rewrite seek_at by lia. rewrite Nat2Z.id.
      replace (length (pre ++ prefix v b) + length (data b))%nat with (length (pre ++ encode v b)) by (unfold encode; rewrite !app_length; lia).
      cbn [length] in Hh.
      rewrite (IH file (pre ++ encode v b) post hs) by (auto; try lia; rewrite E1; unfold encode; rewrite <- !app_assoc; reflexivity).
      cbn [length skipn]. rewrite <- (app_assoc acc). cbn [app].
      replace ((pre ++ encode v b) ++ encode_all v bs) with (pre ++ encode_all v (b :: bs)) by (unfold encode_all; cbn [flat_map]; now rewrite app_assoc).
      replace (length (pre ++ encode v b)) with (length (pre ++ prefix v b) + length (data b))%nat by (unfold encode; rewrite !app_length; lia). reflexivity. }
Qed.

Lemma lif_reader_head : forall H ph file fuel u xml post, length u = 4%nat -> Z.of_nat (length xml) < 2 ^ 31 -> file = head u xml ++ post ->
  lif_reader H ph file fuel = bind (ph (map fst xml)) (fun '(version, hs) => blocks H file fuel version hs (Some test_code) (at_ (length (head u xml))) []).
Proof.
  intros H ph file fuel u xml post Lu Hx E. unfold lif_reader. change (mkStream 0 false) with (at_ (length (@nil Z))).
  assert (E0 : file = [] ++ bytes_of 4 112 ++ (u ++ [42] ++ bytes_of 4 (Z.of_nat (length xml)) ++ chars xml ++ post)). { rewrite E. unfold head. cbn [app]. rewrite <- !app_assoc. reflexivity. }
  change (read_number file 4) with (read_number file (Z.of_nat 4)). rewrite E0 at 1. rewrite read_number_at by (cbn; lia). unfold bind at 1.
  change (negb (112 =? mem_block_code)) with false. cbv iota. cbn [app]. rewrite seek_at by lia. set (m := bytes_of 4 112) in *.
  replace (length m + Z.to_nat 4)%nat with (length (m ++ u)) by (rewrite app_length, Lu; reflexivity).
  assert (E1 : file = (m ++ u) ++ [42] ++ bytes_of 4 (Z.of_nat (length xml)) ++ chars xml ++ post). { rewrite E0. cbn [app]. rewrite <- !app_assoc. reflexivity. }
  rewrite E1 at 1. rewrite get_char_at by reflexivity. change (negb (42 =? test_code)) with false. cbv iota beta.
  assert (E2 : file = ((m ++ u) ++ [42]) ++ bytes_of 4 (Z.of_nat (length xml)) ++ chars xml ++ post). { rewrite E1. rewrite <- !app_assoc. reflexivity. }
  rewrite E2 at 1. rewrite read_number_at by (cbn; lia). unfold bind at 1.
  rewrite Z.mod_small by (unfold two32; lia). replace (Z.of_nat (length xml) * 2) with (Z.of_nat (length (chars xml))) by (rewrite chars_length; lia).
  assert (E3 : file = (((m ++ u) ++ [42]) ++ bytes_of 4 (Z.of_nat (length xml))) ++ chars xml ++ post). { rewrite E2. rewrite <- !app_assoc. reflexivity. }
  rewrite E3 at 1. rewrite read_at. cbn [failed at_]. rewrite every_second_chars.
  replace ((((m ++ u) ++ [42]) ++ bytes_of 4 (Z.of_nat (length xml))) ++ chars xml) with (head u xml) by (unfold head, m; rewrite <- !app_assoc; reflexivity). reflexivity.
Qed.

(** * Description of [found] *)
Lemma found_length : forall (H : Type) v bs p (hs : list H), (length (non_empty bs) <= length hs)%nat -> length (found v p bs hs) = length (non_empty bs).
Proof.
  intros H v bs. induction bs as [|b bs IH]; intros p hs Hh; auto. cbn [found]. unfold non_empty in *. cbn [filter] in *. destruct (data b) as [|x l]; [apply IH; auto|].
  cbn [length] in *. destruct hs as [|h hs]; cbn [length] in *; [lia|]. rewrite IH by lia. auto.
Qed.
Lemma found_nth : forall (H : Type) v bs1 b bs2 p (hs : list H), (length (non_empty (bs1 ++ b :: bs2)) <= length hs)%nat -> data b <> [] ->
  exists h, nth_error hs (length (non_empty bs1)) = Some h /\
    nth_error (found v p (bs1 ++ b :: bs2) hs) (length (non_empty bs1)) = Some (h, Z.of_nat (p + length (encode_all v bs1 ++ prefix v b)), Z.of_nat (length (data b))).
Proof.
  intros H v bs1. induction bs1 as [|a bs1 IH]; intros b bs2 p hs Hh Hd.
  - unfold non_empty in *. cbn [app filter found encode_all flat_map length] in *. destruct (data b) as [|x l] eqn:Ed; [easy|]. destruct hs as [|h hs]; cbn [length nth_error] in *; [lia|]. exists h. auto.
  - cbn [app found]. unfold non_empty in *. cbn [app filter] in *. destruct (data a) as [|x l] eqn:Ea.
    + destruct (IH b bs2 (p + length (prefix v a))%nat hs Hh Hd) as [h [E1 E2]]. exists h. split; auto. rewrite E2. unfold encode_all. cbn [flat_map]. unfold encode at 2. rewrite Ea, app_nil_r. rewrite !app_length. match goal with |- Some (_, Z.of_nat ?x, _) = Some (_, Z.of_nat ?y, _) => replace x with y by lia; reflexivity end.
    + destruct hs as [|h0 hs]; cbn [length nth_error] in *; [lia|].
      destruct (IH b bs2 (p + length (prefix v a) + S (length l))%nat hs ltac:(lia) Hd) as [h [E1 E2]]. exists h. split; auto. rewrite E2. unfold encode_all. cbn [flat_map]. unfold encode at 2. rewrite Ea. rewrite !app_length. cbn [length]. match goal with |- Some (_, Z.of_nat ?x, _) = Some (_, Z.of_nat ?y, _) => replace x with y by lia; reflexivity end.
Qed.

(** * Any file *)
Lemma read_number_inv : forall file n s v s', read_number file n s = Ok (v, s') -> failed s = false /\ s' = mkStream (pos s + n) false /\ v = le (sub file (pos s) n) /\ Z.of_nat (length (sub file (pos s) n)) = n.
Proof.
  intros file n s v s' E. unfold read_number, read in E. destruct (failed s) eqn:F. { rewrite F in E. discriminate. }
  cbn [failed] in E. destruct (Z.eqb_spec (Z.of_nat (length (firstn (Z.to_nat n) (rest file s)))) n) as [En|]; cbn [negb] in E; [|discriminate].
  assert (En' := En). unfold rest in En'. injection E as <- <-. rewrite En. unfold sub. split; [auto|]. split; [auto|]. split; [reflexivity|]. auto.
Qed.
Lemma next_char_pos : forall l p b q, next_char l p = Some (b, q) -> p < q.
Proof. induction l as [|x l IH]; intros p b q E; cbn in E; [discriminate|]. destruct (is_space x); [apply IH in E; lia|]. injection E as <- <-. lia. Qed.
Lemma find_test_pos : forall l p q, find_test_code l p = Some q -> p < q.
Proof. induction l as [|x l IH]; intros p q E; cbn in E; [discriminate|]. destruct (x =? test_code); [|apply IH in E; lia]. injection E as <-. lia. Qed.
Lemma get_char_pos : forall file c s c' s', get_char file c s = (c', s') -> failed s' = false -> failed s = false /\ pos s < pos s'.
Proof.
  intros file c s c' s' E F. unfold get_char in E. destruct (failed s) eqn:Fs. { injection E as <- <-. congruence. }
  destruct (next_char (rest file s) (pos s)) as [[b q]|] eqn:En; injection E as <- <-; [|discriminate]. split; auto. apply next_char_pos in En. auto.
Qed.

Lemma read_number_cases : forall file n s, (exists v s', read_number file n s = Ok (v, s')) \/ read_number file n s = Uninitialised.
Proof. intros. unfold read_number. destruct (read file n s) as [bs s']. destruct (failed s'); eauto. Qed.

Section Any.
Variable H : Type.
Variable file : list Z.
(** One iteration: either it ends, or the loop goes on from a later position without a new series, or with a new one. *)
Inductive next (hs : list H) (s : stream) : list H -> stream -> list (H * Z * Z) -> Prop :=
| next_skip : forall p, pos s < p -> next hs s hs (mkStream p false) []
| next_serie : forall h hs' p ms, hs = h :: hs' -> pos s < p -> p < size file -> (p + ms) mod two64 <= size file -> 0 < ms ->
    next hs s hs' (seek_cur (to_long ms) (mkStream p false)) [(h, p, ms)].
Lemma blocks_next : forall v hs c s acc, 0 <= pos s -> tellg s < size file ->
  (exists r, r <> OutOfFuel /\ (forall l, r <> Ok l) /\ forall fuel, blocks H file (S fuel) v hs c s acc = r) \/
  (exists hs' s' e, failed s = false /\ next hs s hs' s' e /\ forall fuel, blocks H file (S fuel) v hs c s acc = blocks H file fuel v hs' (Some test_code) s' (acc ++ e)).
Proof.
  intros v hs c s acc Hp Ht.
  assert (R : forall r, r <> OutOfFuel -> (forall l, r <> Ok l) -> (forall fuel, blocks H file (S fuel) v hs c s acc = r) -> exists r, r <> OutOfFuel /\ (forall l, r <> Ok l) /\ forall fuel, blocks H file (S fuel) v hs c s acc = r) by eauto.
  destruct (Z.ltb_spec (tellg s) (size file)) as [_|]; [|lia].
  assert (Et : (tellg s <? size file) = true) by (apply Z.ltb_lt; auto).
  destruct (read_number_cases file 4 s) as [[check [s1 E1]]|E1].
  2:{ left. apply (R Uninitialised); try discriminate. intros. cbn [blocks]. rewrite Et, E1. reflexivity. }
  destruct (negb (check =? mem_block_code)) eqn:Ec. { left. apply (R Refused); try discriminate. intros. cbn [blocks]. rewrite Et, E1. cbn [bind]. rewrite Ec. auto. }
  destruct (get_char file c (seek_cur 4 s1)) as [c2 s2] eqn:E2.
  destruct c2 as [ch|]. 2:{ left. apply (R Uninitialised); try discriminate. intros. cbn [blocks]. rewrite Et, E1. cbn [bind]. rewrite Ec, E2. auto. }
  destruct (negb (ch =? test_code)) eqn:Eh. { left. apply (R Refused); try discriminate. intros. cbn [blocks]. rewrite Et, E1. cbn [bind]. rewrite Ec, E2, Eh. auto. }
  destruct (read_number_cases file (if 2 <=? v then 8 else 4) s2) as [[ms [s3 E3]]|E3].
  2:{ left. apply (R Uninitialised); try discriminate. intros. cbn [blocks]. rewrite Et, E1; cbn [bind]; rewrite Ec, E2, Eh, E3. reflexivity. }
  destruct (find_test_code (rest file s3) (pos s3)) as [p|] eqn:E4. 2:{ left. apply (R Hangs); try discriminate. intros. cbn [blocks]. rewrite Et, E1. cbn [bind]. rewrite Ec, E2, Eh, E3. cbn [bind]. rewrite E4. auto. }
  destruct (read_number_cases file 4 (mkStream p false)) as [[n [s5 E5]]|E5].
  2:{ left. apply (R Uninitialised); try discriminate. intros. cbn [blocks]. rewrite Et, E1; cbn [bind]; rewrite Ec, E2, Eh, E3; cbn [bind]; rewrite E4, E5. reflexivity. }
  assert (Step : forall fuel, blocks H file (S fuel) v hs c s acc =
      let s := seek_cur ((n * 2) mod two32) s5 in
          if 0 <? ms then
            match hs with
            | [] => Refused
            | h :: hs' =>
                bind (lif_serie H file h (tellg s) ms) (fun e =>
                blocks H file fuel v hs' (Some test_code) (seek_cur (to_long ms) s) (acc ++ [e]))
            end
          else blocks H file fuel v hs (Some test_code) s acc).
  { intros. cbn [blocks]. rewrite Et, E1. cbn [bind]. rewrite Ec, E2, Eh, E3. cbn [bind]. rewrite E4, E5. cbn [bind]. reflexivity. }
  apply read_number_inv in E1. destruct E1 as (F & -> & _ & _). apply read_number_inv in E3. destruct E3 as (F2 & -> & _ & _). cbn [pos] in *.
  apply get_char_pos in E2; auto. destruct E2 as [_ P2]. apply find_test_pos in E4. apply read_number_inv in E5. destruct E5 as (_ & -> & _ & _). cbn [pos] in *.
  assert (P3 : pos s < p).
  { unfold seek_cur, seek_to in P2. cbn [failed pos] in P2. destruct (Z.ltb_spec (pos s + 4 + 4) 0); cbn [pos] in P2; destruct (2 <=? v); lia. }
  assert (Hm : 0 <= (n * 2) mod two32) by (apply Z.mod_pos_bound; unfold two32; lia).
  assert (Es : seek_cur ((n * 2) mod two32) {| pos := p + 4; failed := false |} = mkStream (p + 4 + (n * 2) mod two32) false).
  { unfold seek_cur, seek_to. cbn [pos failed]. destruct (Z.ltb_spec (p + 4 + (n * 2) mod two32) 0); [lia|auto]. }
  rewrite Es in Step. cbv zeta in Step. set (q := p + 4 + (n * 2) mod two32) in *. assert (pos s < q) by lia. clearbody q.
  destruct (Z.ltb_spec 0 ms) as [Lm|Lm].
  2:{ right. exists hs, (mkStream q false), []. split; auto. rewrite app_nil_r. split; auto. apply next_skip. auto. }
  destruct hs as [|h hs]. { left. apply (R Refused); auto; discriminate. }
  unfold tellg in Step. cbn [failed pos] in Step. unfold lif_serie in Step.
  destruct (Z.leb_spec (size file) q). { left. apply (R Refused); auto; discriminate. }
  destruct (Z.ltb_spec (size file) ((q + ms) mod two64)). { left. apply (R Refused); auto; discriminate. }
  cbn [bind] in Step. right. exists hs, (seek_cur (to_long ms) (mkStream q false)), [(h, q, ms)]. split; auto. split; auto. apply (next_serie _ _ h hs q ms); auto.
Qed.

Lemma next_pos : forall hs s hs' s' e, next hs s hs' s' e -> 0 <= pos s -> 0 <= pos s'.
Proof.
  intros hs s hs' s' e [p Hp|h hs'' p ms E Hp Hs Hm Hz] H0; cbn [pos]; [lia|]. unfold seek_cur, seek_to. cbn [failed pos]. destruct (Z.ltb_spec (p + to_long ms) 0); cbn [pos]; lia.
Qed.
Definition measure (hs : list H) (s : stream) : nat := length hs * S (length file) + (if failed s then 1 else length file - Z.to_nat (pos s)).
Lemma next_measure : forall hs s hs' s' e, next hs s hs' s' e -> 0 <= pos s -> failed s = false -> tellg s < size file -> (measure hs' s' < measure hs s)%nat.
Proof.
  intros hs s hs' s' e N H0 F Ht. unfold tellg in Ht. rewrite F in Ht. unfold size in Ht. destruct N as [p Hp|h hs'' p ms E Hp Hs Hm Hz]; unfold measure; rewrite F; cbn [failed pos].
  - lia.
  - subst hs. cbn [length]. unfold size in Hs. rewrite Nat.mul_succ_l. remember (length hs'' * S (length file))%nat as X. destruct (failed (seek_cur _ _)); lia.
Qed.
Lemma blocks_ends : forall n v hs c s acc, 0 <= pos s -> (measure hs s <= n)%nat -> exists r, r <> OutOfFuel /\ forall fuel, (n < fuel)%nat -> blocks H file fuel v hs c s acc = r.
Proof.
  induction n as [n IH] using lt_wf_ind. intros v hs c s acc Hp Hn. destruct (Z.ltb_spec (tellg s) (size file)) as [Ht|Ht].
  - destruct (blocks_next v hs c s acc Hp Ht) as [[r (R1 & R2 & R3)]|[hs' [s' [e (F & N & St)]]]].
    + exists r. split; auto. intros [|fuel] Hf; [lia|]. apply R3.
    + pose proof (next_measure _ _ _ _ _ N Hp F Ht). pose proof (next_pos _ _ _ _ _ N Hp). assert (Hm : (measure hs' s' < n)%nat) by lia.
      destruct (IH (measure hs' s') Hm v hs' (Some test_code) s' (acc ++ e) H1 (le_n _)) as [r (R1 & R2)]. exists r. split; auto. intros [|fuel] Hf; [lia|]. rewrite St. apply R2. lia.
  - exists (Ok acc). split; [discriminate|]. intros fuel _. destruct fuel; cbn [blocks]; destruct (Z.ltb_spec (tellg s) (size file)); try lia; auto.
Qed.

(** Invariant of the series built. *)
Definition inside (e : H * Z * Z) : Prop := let '(_, o, ms) := e in 0 <= o < size file /\ 0 < ms /\ (ms < two63 -> o + ms <= size file).
Fixpoint chained (p : Z) (l : list (H * Z * Z)) : Prop :=
  match l with [] => True | (_, o, ms) :: l' => p <= o /\ (ms < two63 -> chained (o + ms) l') end.
Lemma blocks_inside : forall fuel v hs c s acc l, size file < two63 -> 0 <= pos s -> blocks H file fuel v hs c s acc = Ok l ->
  exists l', l = acc ++ l' /\ Forall inside l' /\ (failed s = false -> chained (pos s) l') /\ map (fun e => fst (fst e)) l' = firstn (length l') hs.
Proof.
  intros fuel. induction fuel as [|fuel IH]; intros v hs c s acc l Hs Hp E.
  - cbn [blocks] in E. destruct (Z.ltb_spec (tellg s) (size file)); [discriminate|]. injection E as <-. exists []. rewrite app_nil_r. cbn. auto.
  - destruct (Z.ltb_spec (tellg s) (size file)) as [Ht|Ht].
    + destruct (blocks_next v hs c s acc Hp Ht) as [[r (R1 & R2 & R3)]|[hs' [s' [e (F & N & St)]]]]. { rewrite R3 in E. destruct (R2 l E). }
      rewrite St in E. apply IH in E; auto. 2: apply (next_pos _ _ _ _ _ N Hp). destruct E as [l' (-> & I & C & M)]. exists (e ++ l'). rewrite <- app_assoc. split; auto.
      destruct N as [p Hpp|h hs'' p ms Eh Hpp Hsz Hm Hz].
      * split; auto. split; auto. intros _. cbn [app]. cbn [pos failed] in C. specialize (C eq_refl). destruct l' as [|[[h o] ms] l']; cbn [chained] in *; auto. destruct C. split; [lia|auto].
      * assert (Small : ms < two63 -> p + ms <= size file /\ seek_cur (to_long ms) (mkStream p false) = mkStream (p + ms) false).
        { intros L. rewrite Z.mod_small in Hm by (unfold two63, two64 in *; lia). split; auto. unfold seek_cur, seek_to, to_long. cbn [pos failed]. rewrite Z.mod_small by (unfold two63, two64 in *; lia). replace (p + (ms + two63 - two63)) with (p + ms) by lia. destruct (Z.ltb_spec (p + ms) 0); [lia|auto]. }
        cbn [app length map]. split. { constructor; auto. cbn. split; [lia|]. split; auto. intros L. apply Small; auto. }
        split. { intros _. cbn [chained]. split; [lia|]. intros L. destruct (Small L) as [_ E2]. rewrite E2 in C. apply C. auto. }
        subst hs. cbn [firstn]. f_equal. auto.
    + cbn [blocks] in E. destruct (Z.ltb_spec (tellg s) (size file)); [lia|]. injection E as <-. exists []. rewrite app_nil_r. cbn. auto.
Qed.
Lemma chained_nth : forall l p i j h1 o1 m1 h2 o2 m2, chained p l -> (forall e, In e l -> snd e < two63 /\ 0 < snd e) -> nth_error l i = Some (h1, o1, m1) -> nth_error l j = Some (h2, o2, m2) -> (i < j)%nat -> p <= o1 /\ o1 + m1 <= o2.
Proof.
  intros l. assert (A : forall l p j h o m, chained p l -> (forall e, In e l -> snd e < two63 /\ 0 < snd e) -> nth_error l j = Some (h, o, m) -> p <= o).
  { intros l0. induction l0 as [|[[h0 o0] m0] l0 IH]; intros p j h o m C S N; [destruct j; discriminate|]. cbn [chained] in C. destruct C as [C1 C2]. destruct j as [|j]; cbn [nth_error] in N; [injection N as <- <- <-; auto|].
    assert (X := S _ (or_introl eq_refl)). cbn [snd] in X. specialize (IH (o0 + m0) j h o m (C2 (proj1 X)) (fun e I => S e (or_intror I)) N). lia. }
  induction l as [|[[h0 o0] m0] l IH]; intros p i j h1 o1 m1 h2 o2 m2 C S N1 N2 L; [destruct i; discriminate|]. cbn [chained] in C. destruct C as [C1 C2]. assert (X := S _ (or_introl eq_refl)). cbn [snd] in X.
  destruct j as [|j]; [lia|]. cbn [nth_error] in N2. destruct i as [|i]; cbn [nth_error] in N1.
  - injection N1 as <- <- <-. split; auto. apply (A l (o0 + m0) j h2 o2 m2); auto. { apply C2, X. } intros e I. apply S. right; auto.
  - destruct (IH (o0 + m0) i j h1 o1 m1 h2 o2 m2 (C2 (proj1 X)) (fun e I => S e (or_intror I)) N1 N2); lia.
Qed.
End Any.
