(** Discrete Fourier transforms, in exact arithmetic on a commutative ring. *)
Require Import List Arith Bool.
Require Import Verif.Tracker_Spec.
Import ListNotations.
Section Dft.
  Variables (V : Type) (zero one : V) (add mul : V -> V -> V) (opp : V -> V).
  (** Complex numbers *)
  Definition cx : Type := (V * V)%type.
  Definition c0 : cx := (zero, zero).
  Definition c1 : cx := (one, zero).
  Definition cadd (a b : cx) : cx := (add (fst a) (fst b), add (snd a) (snd b)).
  Definition cmul (a b : cx) : cx := (add (mul (fst a) (fst b)) (opp (mul (snd a) (snd b))), add (mul (fst a) (snd b)) (mul (snd a) (fst b))).
  Definition conj (a : cx) : cx := (fst a, opp (snd a)).
  Fixpoint cpow (w : cx) (k : nat) : cx := match k with 0 => c1 | S k => cmul w (cpow w k) end.
  Definition csum {I} (l : list I) (g : I -> cx) : cx := fold_right (fun x s => cadd (g x) s) c0 l.
  Definition cnat (n : nat) : cx := csum (seq 0 n) (fun _ => c1).
  (** [w] is like exp(2 i pi / n) *)
  Definition root (n : nat) (w : cx) : Prop := cmul w (conj w) = c1 /\ cpow w n = c1 /\ forall d, 0 < d < n -> csum (seq 0 n) (fun a => cpow w (a * d)) = c0.

  (** Images of n0 x n1 x n2 pixels, and their frequencies *)
  Variables (n0 n1 n2 : nat) (w0 w1 w2 : cx).
  Definition idx : Type := (nat * nat * nat)%type.
  Definition pixels : list idx := list_prod (list_prod (seq 0 n0) (seq 0 n1)) (seq 0 n2).
  Definition wave (f x : idx) : cx := cmul (cmul (cpow w0 (fst (fst f) * fst (fst x))) (cpow w1 (snd (fst f) * snd (fst x)))) (cpow w2 (snd f * snd x)).
  Definition spectrum (v : idx -> cx) (f : idx) : cx := csum pixels (fun x => cmul (v x) (conj (wave f x))).
  (** The sum of the waves of an image whose frequencies are kept *)
  Definition filtered (keep : idx -> bool) (v : idx -> cx) (x : idx) : cx := csum pixels (fun f => if keep f then cmul (spectrum v f) (wave f x) else c0).
  (** The pixel on the other side; the pixel at some place further, with periodic boundaries *)
  Definition opposites (flip : bool * bool * bool) (x : idx) : idx :=
    let side (b : bool) n i := if b then opposite n i else i in (side (fst (fst flip)) n0 (fst (fst x)), side (snd (fst flip)) n1 (snd (fst x)), side (snd flip) n2 (snd x)).
  Definition opposite3 (f : idx) : idx := opposites (true, true, true) f.
  Definition shifted (a x : idx) : idx := ((fst (fst x) + fst (fst a)) mod n0, (snd (fst x) + snd (fst a)) mod n1, (snd x + snd a) mod n2).

  (** A block of memory: as an image, lines being padded; as half a spectrum, pairs of floats *)
  Definition image (block : list V) (x : idx) : cx := (nth ((fst (fst x) * n1 + snd (fst x)) * (2 * (n2 / 2 + 1)) + snd x) block zero, zero).
  Definition half (block : list V) (f : idx) : cx := let l := (fst (fst f) * n1 + snd (fst f)) * (n2 / 2 + 1) + snd f in (nth (2 * l) block zero, nth (2 * l + 1) block zero).
  Definition block_size : nat := n0 * n1 * (2 * (n2 / 2 + 1)).
  (** What FFTW documents: r2c stores the half of the spectrum with the last frequency up to n2/2; c2r sums the waves of a spectrum with the symmetry of real images, of which it is given the half *)
  Definition r2c (forward : list V -> list V) : Prop := forall block, length block = block_size -> length (forward block) = block_size /\
    forall f, In f pixels -> snd f <= n2 / 2 -> half (forward block) f = spectrum (image block) f.
  Definition hermitian (F : idx -> cx) : Prop := forall f, In f pixels -> F (opposite3 f) = conj (F f).
  Definition stores (block : list V) (F : idx -> cx) : Prop := forall f, In f pixels -> snd f <= n2 / 2 -> half block f = F f.
  Definition c2r (backward : list V -> list V) : Prop := forall block F, length block = block_size -> hermitian F -> stores block F -> length (backward block) = block_size /\
    forall x, In x pixels -> image (backward block) x = csum pixels (fun f => cmul (F f) (wave f x)).
End Dft.
(** The frequencies that a mask keeps: the last frequency by its absolute value *)
Definition kept3 (n2 : nat) (m : nat -> nat -> nat -> bool) (f : nat * nat * nat) : bool := m (fst (fst f)) (snd (fst f)) (freq n2 (snd f)).
