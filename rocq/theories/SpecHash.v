(** What the hash functions are meant to compute. *)
From Coq Require Import List Arith Lia Bool.
From Verif Require Import Field.
Import ListNotations.

Section S.
  Context {F : Field}.
  Open Scope F_scope.

  (** MiMC with key [k]: one round [s -> (s + k + a)^7] per constant [a]. *)
  Definition mimc_cipher (constants : list F) (k s : F) : F :=
    fold_left (fun s a => fpow (s + k + a) 7) constants s.

  (** Miyaguchi-Preneel compression. *)
  Definition mimc_compress (constants : list F) (s x : F) : F := mimc_cipher constants x s + s + x.

  (** [x0; x1; ...; xn] -> [x1; ...; xn; x0] *)
  Definition rotate (l : list F) : list F := match l with [] => [] | x :: l' => l' ++ [x] end.

  (** Add key word [i] and the constant to word [i], raise the first word to the power 7, rotate. *)
  Definition gmimc_round (key state : list F) (a : F) : list F :=
    match map (fun sk => fst sk + snd sk + a) (combine state key) with
    | [] => []
    | x :: l => rotate (fpow x 7 :: l)
    end.
  Definition gmimc_cipher (constants key state : list F) : list F :=
    fold_left (fun s a => gmimc_round key s a) constants state.

  (** Word-wise sum of three vectors of the same length. *)
  Definition add3 (x y z : list F) : list F := map (fun p => fst p + fst (snd p) + snd (snd p)) (combine x (combine y z)).

  (** The message cut in blocks of [t] words, the last one padded with zeros. *)
  Definition blocks (t : nat) (msg : list F) : list (list F) :=
    map (fun j => map (fun i => nth (j * t + i) msg 0) (seq 0 t)) (seq 0 ((length msg + t - 1) / t)).

  (** The matrix-vector product. *)
  Definition mat_vec (mat : list (list F)) (v : list F) : list F :=
    map (fun row => sumn (length row) (fun j => nth j row 0 * nth j v 0)) mat.
End S.
