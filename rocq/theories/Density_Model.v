(** Model of lib/particles: number density, normalised pair correlation functions. *)
Require Import ZArith List Bool Arith.
Require Import Verif.Base Verif.Box_Model Verif.RTree_Model Verif.Index_Model Verif.Traj_Model Verif.Center_Model Verif.Particles_Model Verif.Corr_Model.
Import ListNotations.
Local Open Scope nat_scope.

(** particles.cpp:933-950: the volume accessible to the particles: the overall box of the index, or the extreme coordinates.
    [UB]: front() of an empty set, overall box of an empty tree. *)
Definition density_box (st : particles) : outcome box :=
  match pindex st with
  | Some t => match overall_box t with Some b => Val b | None => UB end
  | None => match pts st with
            | [] => UB
            | p :: _ => Val (combine (fold_left vmin (pts st) p) (fold_left vmax (pts st) p))
            end
  end.
(** particles.cpp:930-953 [getNumberDensity]: the numerator and the denominator of the ratio. *)
Definition number_density (st : particles) : outcome (nat * Z) := omap (fun b => (length (pts st), area b)) (density_box st).

Section Norm.
  (** Doubles: [of_nat]: conversion of a count; [norm num vol n cutoff m]: the factor 4 pi density / scale^3 m of cpp:795, with the density
      num/vol, scale n/cutoff and m the number of selected particles; [legendre]: 13/(4 pi) of cpp:821. *)
  Variables (V : Type) (zero : V) (of_nat : nat -> V) (add mul div : V -> V -> V) (norm : nat -> Z -> nat -> Z -> nat -> V) (legendre : V).
  (** cpp:792-800 [RdfBinner::normalize]; [UB]: g[0] of an empty histogram. *)
  Definition normalize_rdf (nm : V) (g : list V) : outcome (list V) :=
    match g with
    | [] => UB
    | _ :: g' => Val (div zero nm :: map (fun xr => div (div (fst xr) nm) (of_nat (snd xr * snd xr))) (combine g' (seq 1 (length g'))))
    end.
  (** cpp:803-809 [getRdf] of a selection. *)
  Definition get_rdf (st : particles) (n : nat) (cutoff : Z) (sel : list nat) : outcome (list V) :=
    obind (rdf st n cutoff sel) (fun gc =>
    obind (number_density st) (fun d => normalize_rdf (norm (fst d) (snd d) n cutoff (length sel)) (map of_nat (fst gc)))).

  (** Bond orientational orders: isnull() and innerProduct for the given l. *)
  Variables (B : Type) (null : B -> bool) (inner : B -> B -> V).
  (** particles.hpp:311-320 [GlBinner::operator()]: the histogram, the sums and the count. *)
  Definition gl_pair (st : particles) (boos : list B) (cutoff : Z) (ij : nat * nat) (s : list nat * list V * nat) : outcome (list nat * list V * nat) :=
    let '(g, gl, count) := s in
    match nth_error boos (fst ij), nth_error boos (snd ij) with
    | Some b, Some b' =>
        if negb (null b) && negb (null b') then
          match nth_error (pts st) (fst ij), nth_error (pts st) (snd ij) with
          | Some p, Some q =>
              let r := rdf_bin (length g) cutoff (sqdist q p) in
              match incr r g, nth_error gl r with
              | Some g', Some v => Val (g', set_nth r (add v (inner b b')) gl, S count)
              | _, _ => UB
              end
          | _, _ => UB
          end
        else Val s
    | _, _ => UB
    end.
  (** cpp:780-789 [Binner::operator<<], executed by one thread; hpp:225-229 the constructor. *)
  Definition gl_bins (st : particles) (boos : list B) (n : nat) (cutoff : Z) (sel : list nat) : outcome (list nat * list V * nat) :=
    ofold (fun i s => obind (euclid_of st i cutoff) (fun l => ofold (fun j => gl_pair st boos cutoff (i, j)) l s)) sel (repeat 0 n, repeat zero n, 0).
  (** cpp:818-828 [GlBinner::normalize]: the sums; the test 1.0+g*g == 1.0 is true of the count 0 only.  Then the histogram is normalised. *)
  Definition normalize_gl (g : list nat) (gl : list V) : outcome (list V) :=
    match gl with
    | [] => UB
    | _ :: gl' => Val (zero :: map (fun vc => if snd vc =? 0 then zero else div (fst vc) (mul legendre (of_nat (snd vc)))) (combine gl' (skipn 1 g)))
    end.
  Definition get_gl (st : particles) (boos : list B) (n : nat) (cutoff : Z) (sel : list nat) : outcome (list V * list V) :=
    obind (gl_bins st boos n cutoff sel) (fun s => let '(g, gl, _) := s in
    obind (normalize_gl g gl) (fun gl' =>
    obind (number_density st) (fun d => omap (fun g' => (g', gl')) (normalize_rdf (norm (fst d) (snd d) n cutoff (length sel)) (map of_nat g))))).
End Norm.
