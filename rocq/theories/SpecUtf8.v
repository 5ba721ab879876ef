(** Vocabulary: the bytes of a text in UTF-8. *)
From Coq Require Import Lia.
From Verif Require Import Base.
Open Scope N_scope.

Definition utf8_char (c : N) : list N :=
  if c <? 128 then [c]
  else if c <? 2048 then [192 + c / 64; 128 + c mod 64]
  else if c <? 65536 then [224 + c / 4096; 128 + c / 64 mod 64; 128 + c mod 64]
  else [240 + c / 262144; 128 + c / 4096 mod 64; 128 + c / 64 mod 64; 128 + c mod 64].
Definition utf8_bytes (s : str) : list N := flat_map utf8_char s.
(** Reading the bytes of one character back. *)
Definition utf8_read (l : list N) : option N :=
  match l with
  | [a] => Some a
  | [a; b] => Some ((a - 192) * 64 + (b - 128))
  | [a; b; c] => Some ((a - 224) * 4096 + (b - 128) * 64 + (c - 128))
  | [a; b; c; d] => Some ((a - 240) * 262144 + (b - 128) * 4096 + (c - 128) * 64 + (d - 128))
  | _ => None
  end.
Lemma utf8_char_read c : utf8_read (utf8_char c) = Some c.
Proof.
  pose proof (N.div_mod c 64 ltac:(discriminate)) as H. pose proof (N.div_mod (c / 64) 64 ltac:(discriminate)) as H0.
  pose proof (N.div_mod (c / 4096) 64 ltac:(discriminate)) as H1.
  rewrite N.div_div in H0 by discriminate. rewrite N.div_div in H1 by discriminate.
  change (64 * 64) with 4096 in *. change (4096 * 64) with 262144 in *.
  unfold utf8_char. destruct (c <? 128); [reflexivity|].
  revert H H0 H1. generalize (c / 64), (c / 4096), (c / 262144), (c mod 64). intros a b d e.
  generalize (a mod 64), (b mod 64). intros f g H H0 H1.
  destruct (c <? 2048); [|destruct (c <? 65536)]; cbn [utf8_read]; f_equal; lia.
Qed.
(** The bytes are bytes, for the characters there are. *)
Lemma utf8_char_bytes c : c < 1114112 -> Forall (fun b => b < 256) (utf8_char c).
Proof.
  intros H. unfold utf8_char.
  assert (M : forall x, x mod 64 < 64) by (intros; apply N.mod_lt; discriminate).
  assert (D : forall a b, b <> 0 -> c < b * a -> c / b < a) by (intros; apply N.div_lt_upper_bound; auto).
  destruct (N.ltb_spec c 128); [repeat constructor; lia|].
  destruct (N.ltb_spec c 2048). { specialize (D 32 64 ltac:(discriminate)). pose proof (M c). repeat constructor; lia. }
  destruct (N.ltb_spec c 65536).
  { specialize (D 16 4096 ltac:(discriminate)). pose proof (M c). pose proof (M (c / 64)). repeat constructor; lia. }
  specialize (D 5 262144 ltac:(discriminate)). pose proof (M c). pose proof (M (c / 64)). pose proof (M (c / 4096)).
  repeat constructor; lia.
Qed.
Lemma utf8_len_bytes s : utf8_len s = length (utf8_bytes s).
Proof.
  induction s as [|c s IH]; cbn [utf8_len utf8_bytes flat_map]; auto. rewrite app_length, IH. f_equal.
  unfold utf8_clen, utf8_char. destruct (_ <? _); auto. destruct (_ <? _); auto. destruct (_ <? _); auto.
Qed.
