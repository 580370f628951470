(** Model of the encoding of images: [_validate_image], [_serialize_image] (effectful/handlers/llm/encoding.py 397-414), with
    [base64.b64encode], [base64.b64decode] of Python's library (binascii.b2a_base64, binascii.a2b_base64 not strict), [str.split] and
    [str.startswith]. Characters and bytes are numbers. Saving and opening PNGs are the image library's, given. The checks of
    pydantic that a value is an image object are left out. *)
From Coq Require Import List Bool Arith.
Import ListNotations.

(** The alphabet: A-Z a-z 0-9 + / *)
Definition char64 (i : nat) : nat :=
  if i <? 26 then 65 + i else if i <? 52 then 71 + i else if i <? 62 then i - 4 else if i =? 62 then 43 else 47.
Definition val64 (c : nat) : option nat :=
  if (65 <=? c) && (c <=? 90) then Some (c - 65)
  else if (97 <=? c) && (c <=? 122) then Some (c - 71)
  else if (48 <=? c) && (c <=? 57) then Some (c + 4)
  else if c =? 43 then Some 62 else if c =? 47 then Some 63 else None.
Definition pad : nat := 61.
Definition comma : nat := 44.

(** [b64encode] *)
Fixpoint enc64 (bs : list nat) : list nat :=
  match bs with
  | [] => []
  | [a] => [char64 (a / 4); char64 (a mod 4 * 16); pad; pad]
  | [a; b] => [char64 (a / 4); char64 (a mod 4 * 16 + b / 16); char64 (b mod 16 * 4); pad]
  | a :: b :: c :: bs' => char64 (a / 4) :: char64 (a mod 4 * 16 + b / 16) :: char64 (b mod 16 * 4 + c / 64) :: char64 (c mod 64) :: enc64 bs'
  end.
(** [a2b_base64]: [quad] characters of four are read, [pads] pads were met since, [rest] are the bits left over *)
Fixpoint dec64 (quad pads rest : nat) (s : list nat) : option (list nat) :=
  match s with
  | [] => if quad =? 0 then Some [] else None
  | c :: s' =>
      if c =? pad then
        if 2 <=? quad then if 4 <=? quad + S pads then Some [] else dec64 quad (S pads) rest s' else dec64 quad pads rest s'
      else match val64 c with
           | None => dec64 quad pads rest s'
           | Some v =>
               match quad with
               | 0 => dec64 1 0 v s'
               | 1 => option_map (cons (rest * 4 + v / 16)) (dec64 2 0 (v mod 16) s')
               | 2 => option_map (cons (rest * 16 + v / 4)) (dec64 3 0 (v mod 4) s')
               | _ => option_map (cons (rest * 64 + v)) (dec64 0 0 0 s')
               end
           end
  end.
(** [b64decode] of a string: other than ASCII is a ValueError *)
Definition b64decode (s : list nat) : option (list nat) := if forallb (fun c => c <? 128) s then dec64 0 0 0 s else None.

(** [str.split] at a character *)
Fixpoint split (c : nat) (s : list nat) : list (list nat) :=
  match s with
  | [] => [[]]
  | x :: s' => if x =? c then [] :: split c s' else match split c s' with [] => [[x]] | w :: ws => (x :: w) :: ws end
  end.
Fixpoint starts (p s : list nat) : bool :=
  match p, s with [], _ => true | a :: p', b :: s' => (a =? b) && starts p' s' | _, [] => false end.

(** "data:image/" and "data:image/png;base64," *)
Definition data_image : list nat := [100; 97; 116; 97; 58; 105; 109; 97; 103; 101; 47].
Definition png : list nat := [112; 110; 103].
Definition semi_base64 : list nat := [59; 98; 97; 115; 101; 54; 52].

Inductive res (A : Type) := Ok (a : A) | ValueErr | Failed.
Arguments Ok {A}. Arguments ValueErr {A}. Arguments Failed {A}.
Section Image.
Variable img : Type.
Variable save : img -> option (list nat).   (* [Image.save] as PNG *)
Variable open : list nat -> option img.     (* [Image.open] *)

Definition serialize (i : img) : res (list nat) :=
  match save i with Some bs => Ok (data_image ++ png ++ semi_base64 ++ comma :: enc64 bs) | None => Failed end.
(** [image_url] is the URL or an object with it: alike here *)
Definition validate (url : list nat) : res img :=
  match split comma url with
  | [prefix; data] =>
      if starts data_image prefix then
        match b64decode data with
        | Some bs => match open bs with Some i => Ok i | None => Failed end
        | None => ValueErr
        end
      else ValueErr
  | _ => ValueErr
  end.
End Image.
