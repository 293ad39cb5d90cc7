(** common/semaphore.go as operations on a buffered channel of empty structs, and the system of
    any number of goroutines using one semaphore. *)
From Coq Require Import List Arith ZArith Lia Bool.
From Verif Require Import Go Trans.
Import ListNotations.

(** A channel of capacity [ccap] holding [ccount] messages. *)
Record Chan := MkChan { ccap : nat; ccount : nat; cclosed : bool }.

(** Outcome of a channel operation. *)
Inductive outcome := Ok (c : Chan) | Block | Panic.

(** [c <- struct{}{}] *)
Definition chan_send (c : Chan) : outcome :=
  if cclosed c then Panic
  else if ccount c <? ccap c then Ok (MkChan (ccap c) (S (ccount c)) false) else Block.

(** [<-c] *)
Definition chan_recv (c : Chan) : outcome :=
  match ccount c with
  | S n => Ok (MkChan (ccap c) n (cclosed c))
  | O => if cclosed c then Ok c else Block
  end.

(** [close(c)] *)
Definition chan_close (c : Chan) : outcome :=
  if cclosed c then Panic else Ok (MkChan (ccap c) (ccount c) true).

Fixpoint send_n (n : nat) (c : Chan) : outcome :=
  match n with
  | O => Ok c
  | S k => match chan_send c with Ok c' => send_n k c' | o => o end
  end.

(** common/semaphore.go:9-15 NewSemaphore; [make] panics on a negative capacity *)
Definition NewSemaphore (n : Z) : outcome :=
  if (n <? 0)%Z then Panic else send_n (Z.to_nat n) (MkChan (Z.to_nat n) 0 false).

(** common/semaphore.go:18-20 Close, 23-25 Acquire, 28-30 Release *)
Definition Close := chan_close.
Definition Acquire := chan_recv.
Definition Release := chan_send.

(** Goroutines: outside the critical section with [k] passes left to do, or inside with [k]
    passes left after this one. *)
Inductive gpc := Out (k : nat) | In (k : nat).

Record sys := MkSys { sem : Chan; gor : list gpc }.

Inductive sem_step : sys -> option sys -> Prop :=
| st_acquire i k c c' g :
    nth_error g i = Some (Out (S k)) -> Acquire c = Ok c' ->
    sem_step (MkSys c g) (Some (MkSys c' (upd g i (In k))))
| st_acquire_panic i k c g :
    nth_error g i = Some (Out (S k)) -> Acquire c = Panic ->
    sem_step (MkSys c g) None
| st_release i k c c' g :
    nth_error g i = Some (In k) -> Release c = Ok c' ->
    sem_step (MkSys c g) (Some (MkSys c' (upd g i (Out k))))
| st_release_panic i k c g :
    nth_error g i = Some (In k) -> Release c = Panic ->
    sem_step (MkSys c g) None
(** a new goroutine is started *)
| st_spawn k c g :
    sem_step (MkSys c g) (Some (MkSys c (g ++ [Out k]))).

Definition inside (s : sys) : nat := length (filter (fun p => match p with In _ => true | _ => false end) (gor s)).
