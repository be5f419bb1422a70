(** What a textual template means. *)
From Verif Require Import Base EncodingModel ProcessorModel.
Open Scope Z_scope.

(** The value of a string of decimal digits. *)
Inductive numeral : str -> Z -> Prop :=
| Num_digit : forall d, 0 <= d <= 9 -> numeral [Z.to_N (48 + d)] d
| Num_more : forall s z d, numeral s z -> 0 <= d <= 9 -> numeral (s ++ [Z.to_N (48 + d)]) (10 * z + d).

(** A decimal number with an optional sign that fits into 64 bits. *)
Definition number (s : str) (z : Z) : Prop :=
  (numeral s z \/ (exists s', s = 43%N :: s' /\ numeral s' z) \/ (exists s' z', s = 45%N :: s' /\ numeral s' z' /\ z = - z')) /\
  - 2 ^ 63 <= z < 2 ^ 63.

(** A piece without type: "$", "$A", "$a", "$B", "$b", "$" and a number for sequence A with
    this type, or the name of a special token. *)
Inductive plain_piece : str -> piece -> Prop :=
| Plain_A : forall r, r = [] \/ r = [65%N] \/ r = [97%N] -> plain_piece (36%N :: r) (PSeq false 0)
| Plain_B : forall r, r = [66%N] \/ r = [98%N] -> plain_piece (36%N :: r) (PSeq true 0)
| Plain_number : forall r n, number r n -> plain_piece (36%N :: r) (PSeq false n)
| Plain_special : forall s, (forall r, s <> 36%N :: r) -> plain_piece s (PSpecial s 0).

Definition typed (ty : Z) (p : piece) : piece := match p with PSeq b _ => PSeq b ty | PSpecial id _ => PSpecial id ty end.

(** A piece, possibly followed by a colon and its type. *)
Definition piece_text (s : str) (p : piece) : Prop :=
  (~ In 58%N s /\ plain_piece s p) \/
  (exists h t q ty, s = h ++ 58%N :: t /\ ~ In 58%N h /\ plain_piece h q /\ number t ty /\ p = typed ty q).

(** Texts between single spaces. *)
Fixpoint spaced (parts : list str) : str :=
  match parts with [] => [] | [x] => x | x :: parts' => x ++ 32%N :: spaced parts' end.
Definition template_text (s : str) (t : list piece) : Prop :=
  exists parts, parts <> [] /\ s = spaced parts /\ Forall (fun x => ~ In 32%N x) parts /\ Forall2 piece_text parts t.

(** A piece that can be written: its type is a machine integer, its name contains no space
    or colon and does not start with a dollar. *)
Definition expressible (p : piece) : Prop :=
  match p with
  | PSeq _ ty => - 2 ^ 63 <= ty < 2 ^ 63
  | PSpecial id ty => - 2 ^ 63 <= ty < 2 ^ 63 /\ ~ In 32%N id /\ ~ In 58%N id /\ (forall r, id <> 36%N :: r)
  end.

Definition is_special_token (p : piece) : Prop := match p with PSeq _ _ => False | PSpecial _ _ => True end.

(** The last pair with this key. *)
Inductive last_bound {V} (k : str) : list (str * V) -> V -> Prop :=
| Last_here : forall l v, ~ In k (map fst l) -> last_bound k ((k, v) :: l) v
| Last_later : forall x l v, last_bound k l v -> last_bound k (x :: l) v.
