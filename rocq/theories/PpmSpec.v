(** * A reader for the Netpbm formats P3 and P6, and writers that can fail

    Independent of the encoders; follows https://netpbm.sourceforge.net/doc/ppm.html.
    Bytes are integers. *)
From Coq Require Import ZArith Bool List.
From Verif Require Import Num ColorModel ImageModel.
Import ListNotations.
Local Open Scope Z_scope.

Definition is_white (b : Z) : bool := ((9 <=? b) && (b <=? 13)) || (b =? 32).
Definition is_digit (b : Z) : bool := (48 <=? b) && (b <=? 57).

(** skip white space, and comments from '#' to the end of the line *)
Fixpoint skip (comment : bool) (l : list Z) : list Z :=
  match l with
  | nil => nil
  | b :: r =>
    if comment then skip (negb ((b =? 10) || (b =? 13))) r
    else if is_white b then skip false r
    else if b =? 35 then skip true r
    else l
  end.

Fixpoint digits_value (l : list Z) (acc : Z) : Z * list Z :=
  match l with
  | b :: r => if is_digit b then digits_value r (10 * acc + (b - 48)) else (acc, l)
  | nil => (acc, nil)
  end.

(** a decimal number after optional white space *)
Definition read_number (l : list Z) : option (Z * list Z) :=
  match skip false l with
  | b :: r => if is_digit b then Some (digits_value (b :: r) 0) else None
  | nil => None
  end.

Fixpoint read_numbers (n : nat) (l : list Z) : option (list Z * list Z) :=
  match n with
  | O => Some (nil, l)
  | S n =>
    match read_number l with
    | Some (z, l) => match read_numbers n l with Some (zs, l) => Some (z :: zs, l) | None => None end
    | None => None
    end
  end.

(** samples of 16 bits, most significant byte first *)
Fixpoint read_words (n : nat) (l : list Z) : option (list Z * list Z) :=
  match n with
  | O => Some (nil, l)
  | S n =>
    match l with
    | hi :: lo :: l => match read_words n l with Some (zs, l) => Some (256 * hi + lo :: zs, l) | None => None end
    | _ => None
    end
  end.

Record netpbm : Type := Netpbm { npWidth : Z; npHeight : Z; npMax : Z; npSamples : list Z }.

(** returns what is left after the image *)
Definition read_P3 (l : list Z) : option (netpbm * list Z) :=
  match l with
  | 80 :: 51 :: l =>
    match read_numbers 3 l with
    | Some ([w; h; m], l) =>
      match read_numbers (Z.to_nat (3 * w * h)) l with
      | Some (s, l) => Some (Netpbm w h m s, l)
      | None => None
      end
    | _ => None
    end
  | _ => None
  end.

(** for a maximum of at least 256; a single white space byte ends the header *)
Definition read_P6 (l : list Z) : option (netpbm * list Z) :=
  match l with
  | 80 :: 54 :: l =>
    match read_numbers 3 l with
    | Some ([w; h; m], b :: l) =>
      if is_white b && (256 <=? m) then
        match read_words (Z.to_nat (3 * w * h)) l with
        | Some (s, l) => Some (Netpbm w h m s, l)
        | None => None
        end
      else None
    | _ => None
    end
  | _ => None
  end.

(** the writer that accepts everything *)
Definition collect (bs : list Z) (w : list Z) : bool * list Z := (false, w ++ bs).

(** a writer that keeps a record of what it was given and whether it reported an error *)
Definition logged {W} (write : list Z -> W -> bool * W) (bs : list Z) (s : W * list (list Z * bool)) :
    bool * (W * list (list Z * bool)) :=
  let '(e, w) := write bs (fst s) in (e, (w, snd s ++ [(bs, e)])).

(** the samples of an image in reading order *)
Definition samples {F} `{Num F} `{Trig F} (img : list (list (color F))) : list Z :=
  flat_map (fun c => [trunc16 (cR c); trunc16 (cG c); trunc16 (cB c)]) (concat img).

(** at least one row, and all rows of the same length *)
Definition rectangular {F} (w : nat) (img : list (list (color F))) : Prop := img <> nil /\ Forall (fun row => length row = w) img.
