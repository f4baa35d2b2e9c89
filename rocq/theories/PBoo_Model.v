(** Model of the bond orientational order of a set of particles (lib/particles.cpp:348-540). *)
Require Import List Bool Arith.
Require Import Verif.Base Verif.Traj_Model Verif.Particles_Model Verif.RTree_Model Verif.Ngb_Model Verif.Corr_Model Verif.Boo_Model Verif.Pyramid_Model.
Import ListNotations.
Local Open Scope nat_scope.

Section PBoo.
  (** The 36 coefficients (BooData): null, operator+=, division by a number of bonds (by 0 included, floating point);
      the harmonics of the bond between two particles (350-353, BooData(getDiff)); the half turn around a bond
      (boo_data.cpp rotate_by_Pi, see Wigner_Model); the test [0]==0.0 of the first coefficient. *)
  Variables (B : Type) (zero : B) (add : B -> B -> B) (divn : B -> nat -> B).
  Variables (harm : nat -> nat -> B) (turn : nat -> nat -> B -> B) (null : B -> bool).
  (** The number of particles and the neighbour lists (assumed created). *)
  Variables (n : nat) (ngb : list (list nat)).

  (** cpp:350-353 [sphHarm_OneBond]; particles.hpp:285-290 getDiff reads with at(). *)
  Definition one_bond (p q : nat) : outcome B := if (p <? n) && (q <? n) then Val (harm p q) else Throw.

  (** cpp:359-373 [getBOO] *)
  Definition get_boo (center : nat) : outcome B :=
    obind (at_index ngb center) (fun l =>
      match l with
      | [] => Val zero
      | _ :: _ => omap (fun s => divn s (length l)) (ofold (fun q acc => omap (add acc) (one_bond center q)) l zero)
      end).
  (** cpp:381-391 [getCgBOO] *)
  Definition get_cg_boo (boo : list B) (center : nat) : outcome B :=
    obind (at_index boo center) (fun b =>
    obind (at_index ngb center) (fun l =>
      omap (fun s => divn s (1 + length l)) (ofold (fun q acc => omap (add acc) (at_index boo q)) l b))).

  (** std::vector::resize: what was there stays. *)
  Definition resize (old : list B) : list B := firstn n old ++ repeat zero (n - length old).

  (** BOO[c] += y; nbs[c]++; *)
  Definition deposit (w : nat * B) (st : list B * list nat) : outcome (list B * list nat) :=
    obind (at_index (fst st) (fst w)) (fun b =>
    obind (at_index (snd st) (fst w)) (fun k =>
    obind (write (fst w) (add b (snd w)) (fst st)) (fun bs =>
    obind (write (fst w) (k + 1) (snd st)) (fun ks => Val (bs, ks))))).
  Definition deposits (ws : list (nat * B)) (st : list B * list nat) : outcome (list B * list nat) := ofold deposit ws st.
  (** The two loops over p and over q from lower_bound(p+1). *)
  Definition over_bonds {W} (f : nat -> nat -> W -> outcome W) (w : W) : outcome W :=
    ofold (fun pl w => ofold (f (fst pl)) (after (fst pl) (snd pl)) w) (combine (seq 0 (length ngb)) ngb) w.

  (** cpp:396-414 [getBOOs(BOO)]; [old] is what the vector held before. *)
  Definition get_boos (old : list B) : outcome (list B) :=
    omap (fun st => map (fun bk => divn (fst bk) (snd bk)) (combine (fst st) (snd st)))
      (over_bonds (fun p q st => obind (one_bond p q) (fun y => deposits [(p, y); (q, y)] st)) (resize old, repeat 0 n)).

  (** cpp:420-425 [getBOOs(selection,BOO)] *)
  Definition get_boos_sel (sel : list nat) (old : list B) : outcome (list B) :=
    ofold (fun p bs => obind (get_boo p) (fun b => write p b bs)) sel (resize old).
  (** cpp:431-436 [getCgBOOs(selection,BOO,cgBOO)] *)
  Definition get_cg_boos (sel : list nat) (boo old : list B) : outcome (list B) :=
    ofold (fun p bs => obind (get_cg_boo boo p) (fun b => write p b bs)) sel (resize old).

  (** Division when the number of bonds is not null (cpp:470-473, 513-518). *)
  Definition divnz (bk : B * nat) : B := if snd bk =? 0 then fst bk else divn (fst bk) (snd bk).
  Definition normal (st : list B * list nat) : list B := map divnz (combine (fst st) (snd st)).
  (** cpp:455-462 the common neighbours, by intersection of the two lists. *)
  Definition commons (p q : nat) : outcome (list nat) :=
    obind (at_index ngb p) (fun lp => obind (at_index ngb q) (fun lq => Val (set_inter lp lq))).
  (** cpp:441-474 [getSurfBOOs] *)
  Definition get_surf_boos (old : list B) : outcome (list B) :=
    omap normal
      (over_bonds (fun p q st =>
         obind (one_bond p q) (fun y =>
         obind (deposits [(p, y); (q, y)] st) (fun st =>
         obind (commons p q) (fun cs => deposits (map (fun c => (c, y)) cs) st)))) (resize old, repeat 0 n)).
  (** cpp:476-519 [getBOOs_SurfBOOs] *)
  Definition get_boos_surf_boos (old olds : list B) : outcome (list B * list B) :=
    omap (fun s2 => (normal (fst s2), normal (snd s2)))
      (over_bonds (fun p q s2 =>
         obind (one_bond p q) (fun y =>
         obind (deposits [(p, y); (q, y)] (fst s2)) (fun st =>
         obind (deposits [(p, y); (q, y)] (snd s2)) (fun ss =>
         obind (commons p q) (fun cs =>
         obind (deposits (map (fun c => (c, y)) cs) ss) (fun ss => Val (st, ss)))))))
        ((resize old, repeat 0 n), (resize olds, repeat 0 n))).

  (** cpp:522-540 [getFlipBOOs]; a bond is (low, high). *)
  Definition get_flip_boos (boo : list B) (bonds : list (nat * nat)) : outcome (list B) :=
    omap (fun st => map (fun bk => divn (fst bk) (snd bk)) (combine (fst st) (snd st)))
      (ofold (fun b st =>
         obind (at_index boo (fst b)) (fun lo =>
         if null lo then Val st
         else obind (at_index boo (snd b)) (fun hi =>
         if null hi then Val st
         else if (fst b <? n) && (snd b <? n)
              then deposits [(fst b, turn (fst b) (snd b) hi); (snd b, turn (fst b) (snd b) lo)] st
              else Throw)))
       bonds (boo, repeat 1 (length boo))).
  (** particles.hpp:322-336 [removeOutside] on a selection, [p] being the first value not yet looked at. *)
  Definition wipe (from upto : nat) (bs : list B) : outcome (list B) := ofold (fun i bs => write i zero bs) (seq from (upto - from)) bs.
  Fixpoint remove_outside (inside : list nat) (p : nat) (bs : list B) : outcome (list B) :=
    match inside with
    | [] => wipe p n bs
    | it :: inside' => obind (wipe p it bs) (remove_outside inside' (it + 1))
    end.
End PBoo.
