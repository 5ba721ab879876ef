(** Vocabulary for C109 and C110: the same program on another day, on another terminal, or with other files. *)
From Verif Require Import Base.

(** Not in the code: [w] with another day for today, another width of the terminal, if any, and other contents of files. *)
Definition elsewhere (day : Z) (width : option nat) (read : str -> option str) (w : world) : world :=
  {| w_lower := w_lower w; w_numeric := w_numeric w; w_rx := w_rx w; w_rx_ok := w_rx_ok w; w_width := width;
     w_read := read; w_glob := w_glob w; w_two_timer := w_two_timer w; w_now := day; w_ord := w_ord w |}.
Definition on_day (day : Z) (w : world) : world := elsewhere day (w_width w) (w_read w) w.
Definition on_width (width : option nat) (w : world) : world := elsewhere (w_now w) width (w_read w) w.
Definition with_files (read : str -> option str) (w : world) : world := elsewhere (w_now w) (w_width w) read w.
(** The files that can be read in [w] have the same contents in [read], which may have more of them. *)
Definition more_files (w : world) (read : str -> option str) : Prop := forall f s, w_read w f = Some s -> read f = Some s.
