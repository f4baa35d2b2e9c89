(** Model of lib/boo_data: spherical harmonics coefficients of bond orientational order.
    The real numbers are any ring [K] (exact arithmetic); a complex number is a pair of them. *)
Require Import ZArith QArith List Bool Arith.
Require Import Verif.Base Verif.ListX Verif.Traj_Model Verif.Particles_Model Verif.Corr_Model.
Import ListNotations.
Local Open Scope nat_scope.

Definition at_index {A} (l : list A) (i : nat) : outcome A := match nth_error l i with Some x => Val x | None => UB end.

(** boo_data.cpp:86-97 [i2l], [i2m]. *)
Definition i2l : list nat := [0; 2; 2; 2; 4; 4; 4; 4; 4; 6; 6; 6; 6; 6; 6; 6; 8; 8; 8; 8; 8; 8; 8; 8; 8; 10; 10; 10; 10; 10; 10; 10; 10; 10; 10; 10].
Definition i2m : list nat := [0; 0; 1; 2; 0; 1; 2; 3; 4; 0; 1; 2; 3; 4; 5; 6; 0; 1; 2; 3; 4; 5; 6; 7; 8; 0; 1; 2; 3; 4; 5; 6; 7; 8; 9; 10].

(** boo_data.cpp:83-84 *)
Definition w3j_l_offset : list nat := [0; 1; 5; 14; 30; 55].
Definition w3j_m1_offset : list nat := [0; 1; 2; 4; 6; 9; 12; 16; 20; 25; 30].
(** boo_data.cpp:103-112 [getW3j]: the position in the table. *)
Definition w3j_index (l : nat) (m1 m2 : Z) : outcome nat :=
  match sort_by Z.ltb [Z.abs m1; Z.abs m2; Z.abs (m1 + m2)] with
  | [front; _; back] => obind (at_index w3j_l_offset (l / 2)) (fun a => omap (fun b => a + b + Z.to_nat front) (at_index w3j_m1_offset (Z.to_nat back)))
  | _ => UB
  end.
Definition get_w3j {W} (table : list W) (l : nat) (m1 m2 : Z) : outcome W := obind (w3j_index l m1 m2) (at_index table).

(** boo_data.cpp:38-81: an entry c*sqrt(r) is the pair (c, r). *)
Definition w3j_table : list (Q * Q) :=
  [
   (1 # 1, 1 # 1);
   ((-1) # 1, 2 # 35); (1 # 1, 1 # 70); (1 # 1, 2 # 35); ((-1) # 1, 3 # 35);
   (3 # 1, 2 # 1001); ((-3) # 1, 1 # 2002); ((-1) # 3, 11 # 182); (2 # 1, 5 # 1001); (1 # 1, 7 # 286); ((-1) # 3, 5 # 143); (1 # 3, 14 # 143); ((-1) # 3, 35 # 143); (1 # 1, 5 # 143);
   ((-20) # 1, 1 # 46189); (10 # 1, 1 # 46189); (1 # 1, 11 # 4199); ((-2) # 1, 105 # 46189); ((-43) # 2, 1 # 46189); (3 # 1, 21 # 92378); (4 # 1, 1 # 46189); (5 # 2, 35 # 46189); ((-6) # 1, 14 # 46189); (5 # 2, 11 # 4199); ((-3) # 2, 21 # 4199); (1 # 1, 7 # 4199); (1 # 1, 11 # 4199); ((-1) # 1, 77 # 8398); (1 # 1, 70 # 4199); ((-2) # 1, 21 # 4199);
   (7 # 1, 10 # 96577); ((-7) # 1, 5 # 193154); ((-37) # 1, 1 # 965770); (6 # 1, 14 # 96577); (73 # 1, 1 # 965770); ((-3) # 1, 66 # 482885); ((-5) # 1, 5 # 193154); ((-8) # 1, 3 # 96577); (6 # 1, 77 # 482885); ((-1) # 1, 65 # 14858); (3 # 1, 5 # 7429); ((-1) # 1, 42 # 37145); (1 # 1, 65 # 14858); (0 # 1, 1 # 1); ((-3) # 1, 3 # 7429); (2 # 1, 66 # 37145); (7 # 1, 13 # 74290); ((-1) # 1, 78 # 7429); (3 # 1, 26 # 37145); ((-1) # 1, 33 # 37145); (1 # 1, 26 # 37145); ((-3) # 1, 13 # 37145); (1 # 1, 273 # 37145); ((-1) # 1, 429 # 37145); (3 # 1, 11 # 7429);
   ((-126) # 1, 7 # 33393355); (63 # 1, 7 # 33393355); (196 # 3, 7 # 33393355); ((-7) # 1, 462 # 6678671); ((-259) # 2, 7 # 33393355); (7 # 3, 1001 # 6678671); (1097 # 3, 1 # 233753485); (59 # 6, 77 # 6678671); ((-2) # 1, 6006 # 6678671); (4021 # 6, 1 # 233753485); ((-113) # 2, 55 # 46750697); (3 # 1, 1155 # 13357342); ((-914) # 1, 1 # 233753485); (1 # 3, 2926 # 1757545); (48 # 1, 33 # 46750697); ((-3) # 1, 3003 # 6678671); ((-7) # 3, 119 # 1964315); (65 # 3, 22 # 2750041); ((-1) # 1, 1914 # 474145); (3 # 1, 429 # 5500082); (214 # 3, 17 # 13750205); ((-3) # 1, 561 # 2750041); ((-2) # 3, 77 # 392863); (71 # 3, 143 # 27500410); ((-1) # 1, 2002 # 392863); (3 # 1, 323 # 723695); ((-1) # 3, 1309 # 20677); (5 # 3, 374 # 144739); ((-2) # 1, 143 # 144739); (1 # 3, 1001 # 206770); (2 # 3, 323 # 723695); ((-1) # 3, 7106 # 723695); (2 # 1, 561 # 723695); ((-4) # 3, 2431 # 723695); (2 # 3, 2002 # 103385); ((-1) # 1, 1001 # 103385)].

Section Boo.
  Variables (K : Type) (k0 k1 : K) (kadd kmul ksub : K -> K -> K) (kopp : K -> K).
  Definition cplx : Type := K * K.
  (** std::complex *)
  Definition cadd (x y : cplx) : cplx := (kadd (fst x) (fst y), kadd (snd x) (snd y)).
  Definition cmul (x y : cplx) : cplx := (ksub (kmul (fst x) (fst y)) (kmul (snd x) (snd y)), kadd (kmul (fst x) (snd y)) (kmul (snd x) (fst y))).
  Definition cconj (x : cplx) : cplx := (fst x, kopp (snd x)).
  Definition copp (x : cplx) : cplx := (kopp (fst x), kopp (snd x)).
  Definition cscal (a : K) (x : cplx) : cplx := (kmul a (fst x), kmul a (snd x)).
  Definition cnorm (x : cplx) : K := kadd (kmul (fst x) (fst x)) (kmul (snd x) (snd x)).
  Definition c0 : cplx := (k0, k0).
  Definition ktwo : K := kadd k1 k1.

  (** boo_data.cpp:152-160 operator()(l,m). *)
  Definition coef (q : list cplx) (l : nat) (m : Z) : outcome cplx :=
    if (0 <=? m)%Z then at_index q (Z.to_nat m + l * l / 4)
    else if ((- m) mod 2 =? 0)%Z then omap cconj (at_index q (l * l / 4 + Z.to_nat (- m)))
    else omap (fun x => copp (cconj x)) (at_index q (l * l / 4 + Z.to_nat (- m))).

  (** boo_data.cpp:163-171 [innerProduct]. *)
  Definition inner_product (a b : list cplx) (l : nat) : outcome K :=
    obind (ofold (fun m s => obind (coef a l (Z.of_nat m)) (fun x => omap (fun y => kadd s (fst (cmul x (cconj y)))) (coef b l (Z.of_nat m)))) (seq 1 l) k0) (fun s =>
    obind (at_index a (l * l / 4)) (fun x => omap (fun y => kadd (kmul s ktwo) (fst (cmul x y))) (at_index b (l * l / 4)))).
  (** boo_data.cpp:180-188 [getSumNorm]. *)
  Definition sum_norm (a : list cplx) (l : nat) : outcome K :=
    obind (ofold (fun m s => omap (fun x => kadd s (cnorm x)) (at_index a (m + l * l / 4))) (seq 1 l) k0) (fun s =>
    omap (fun x => kadd (kmul s ktwo) (cnorm x)) (at_index a (l * l / 4))).

  (** Term of the sums of boo_data.cpp:210 and 231. *)
  Definition term3 (table : list K) (q : list cplx) (l : nat) (m1 m2 m3 : Z) : outcome cplx :=
    obind (get_w3j table l m1 m2) (fun w =>
    obind (coef q l m1) (fun x =>
    obind (coef q l m2) (fun y =>
    omap (fun z => cmul (cmul (cscal w x) y) z) (coef q l m3)))).
  Definition twelve : K := let three := kadd ktwo k1 in kmul three (kmul ktwo ktwo).
  (** boo_data.cpp:195-216 [getWl]; [rescale s W]: the division by pow(s,1.5), unless 1.0+s==1.0.  -m1-m2 of size_t wraps and is
      converted to the negative int. *)
  Variable rescale : K -> cplx -> cplx.
  Definition get_wl (table : list K) (q : list cplx) (l : nat) : outcome cplx :=
    obind (sum_norm q l) (fun sq =>
    omap (fun w => rescale sq (cscal twelve w))
      (ofold (fun m1 w => ofold (fun m2 w => omap (cadd w) (term3 table q l (Z.of_nat m1) (Z.of_nat m2) (- Z.of_nat m1 - Z.of_nat m2))) (seq m1 (l - m1 - m1 + 1)) w) (seq 0 (l / 2 + 1)) c0)).
  (** boo_data.cpp:219-241 [getInvarients], the W part. *)
  Definition zrange (l : nat) : list Z := map (fun k => (Z.of_nat k - Z.of_nat l)%Z) (seq 0 (2 * l + 1)).
  Definition get_invarients (table : list K) (q : list cplx) (l : nat) : outcome cplx :=
    obind (sum_norm q l) (fun sq =>
    omap (rescale sq)
      (ofold (fun m1 w => ofold (fun m2 w =>
         let m3 := (- (m1 + m2))%Z in
         if ((- Z.of_nat l <=? m3) && (m3 <=? Z.of_nat l))%Z then omap (cadd w) (term3 table q l m1 m2 m3) else Val w) (zrange l) w) (zrange l) c0)).

  (** boo_data.cpp:318-326 [toBinary], 330-335 [BooData(buff)].  An array of doubles is a list; [None]: never written. *)
  Definition to_binary (q : list cplx) (out : list K) : outcome (list K) :=
    if length out <? 2 * length q then UB else Val (flat_map (fun x => [fst x; snd x]) q ++ skipn (2 * length q) out).
  Definition of_binary (buff : list K) : outcome (list cplx) :=
    osequence (map (fun i => obind (at_index buff (2 * i)) (fun re => omap (fun im => (re, im)) (at_index buff (2 * i + 1)))) (seq 0 36)).

  (** Text: [tokens] stands for the characters, [print]/[parse] for the library's conversion of a double. *)
  Variables (Ch : Type) (tab : Ch) (print : K -> list Ch) (parse : list Ch -> outcome (K * list Ch)).
  (** boo_data.cpp:338-344 operator<<. *)
  Definition print_boo (q : list cplx) : list Ch := flat_map (fun x => print (fst x) ++ tab :: print (snd x) ++ [tab]) q.
  (** boo_data.cpp:347-356 operator>>, for a BooData of n coefficients.  [Throw]: the stream failed (its values are then unspecified). *)
  Fixpoint read_boo (n : nat) (s : list Ch) : outcome (list cplx * list Ch) :=
    match n with
    | O => Val ([], s)
    | S n' => obind (parse s) (fun r1 => obind (parse (snd r1)) (fun r2 => omap (fun r => ((fst r1, fst r2) :: fst r, snd r)) (read_boo n' (snd r2))))
    end.
  (** boo_data.cpp:307-313 [BooData(string)]: 36 reads into 16 elements. *)
  Variable parse_cplx : list Ch -> cplx * list Ch.
  Fixpoint fill_from (is : list nat) (q : list cplx) (s : list Ch) : outcome (list cplx) :=
    match is with
    | [] => Val q
    | i :: is' => if i <? length q then let '(x, s') := parse_cplx s in fill_from is' (RTree_Model.set_nth i x q) s' else UB
    end.
  Definition of_string (s : list Ch) : outcome (list cplx) := fill_from (seq 0 36) (repeat c0 16) s.
End Boo.
