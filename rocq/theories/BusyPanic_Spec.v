(** Histories with panics. *)
From Verif Require Import Base Lin_Spec Busy_Model Busy_Spec BusyPanic_Model.

(** the history without the panics *)
Definition plain {E} (h : list (pev E)) : list E := omap (fun e => match e with Ev e => Some e | _ => None end) h.
(** a goroutine with this history is in pull or in the callback *)
Definition in_a_call {T R} (es : list (wev T R)) : Prop := last es = Some Pull \/ exists a x, last es = Some (Call a x).
Definition t_in_a_call {T} (i : nat) (es : list (tev T)) : Prop := last es = Some (TPull i) \/ exists a x, last es = Some (TCall i a x).
