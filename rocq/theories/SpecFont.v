(** * SpecFont: the mathematical alphabets of Unicode.

    The layout of the block Mathematical Alphanumeric Symbols (U+1D400 to
    U+1D7FF) and of the letters that have a place of their own in the block
    Letterlike Symbols, where the alphabets have holes. *)

From Coq Require Import List NArith Bool.
From Verif Require Import Base Float32 Event.
Import ListNotations.
Open Scope N_scope.

(** The capital A of the alphabet of a font: 26 capitals, then 26 small letters. *)
Definition latin (f : font) : option N :=
  match f with
  | FBold => Some 119808              (* 1D400 *)
  | FItalic => Some 119860            (* 1D434 *)
  | FBoldItalic => Some 119912        (* 1D468 *)
  | FScript => Some 119964            (* 1D49C *)
  | FBoldScript => Some 120016        (* 1D4D0 *)
  | FFraktur => Some 120068           (* 1D504 *)
  | FDoubleStruck => Some 120120      (* 1D538 *)
  | FBoldFraktur => Some 120172       (* 1D56C *)
  | FSansSerif => Some 120224         (* 1D5A0 *)
  | FBoldSansSerif => Some 120276     (* 1D5D4 *)
  | FSansSerifItalic => Some 120328   (* 1D608 *)
  | FSansSerifBoldItalic => Some 120380 (* 1D63C *)
  | FMonospace => Some 120432         (* 1D670 *)
  | _ => None
  end.

(** The capital Alpha: 17 capitals, the capital theta symbol, 7 capitals, nabla,
    25 small letters, the partial differential, and 6 variants. *)
Definition greek (f : font) : option N :=
  match f with
  | FBold => Some 120488              (* 1D6A8 *)
  | FItalic => Some 120546            (* 1D6E2 *)
  | FBoldItalic => Some 120604        (* 1D71C *)
  | FBoldSansSerif => Some 120662     (* 1D756 *)
  | FSansSerifBoldItalic => Some 120720 (* 1D790 *)
  | _ => None
  end.

(** The digit zero. *)
Definition digits (f : font) : option N :=
  match f with
  | FBold => Some 120782              (* 1D7CE *)
  | FDoubleStruck => Some 120792      (* 1D7D8 *)
  | FSansSerif => Some 120802         (* 1D7E2 *)
  | FBoldSansSerif => Some 120812     (* 1D7EC *)
  | FMonospace => Some 120822         (* 1D7F6 *)
  | _ => None
  end.

(** The place of a Greek letter in its alphabet. *)
Definition greek_index (c : char) : option N :=
  if (913 <=? c) && (c <=? 937) && negb (c =? 930) then Some (c - 913)
  else if c =? 1012 then Some 17       (* theta symbol *)
  else if c =? 8711 then Some 25       (* nabla *)
  else if (945 <=? c) && (c <=? 969) then Some (c - 945 + 26)
  else if c =? 8706 then Some 51       (* partial differential *)
  else if c =? 1013 then Some 52       (* lunate epsilon *)
  else if c =? 977 then Some 53        (* theta *)
  else if c =? 1008 then Some 54       (* kappa *)
  else if c =? 981 then Some 55        (* phi *)
  else if c =? 1009 then Some 56       (* rho *)
  else if c =? 982 then Some 57        (* pi *)
  else None.

Fixpoint assoc (c : char) (l : list (char * N)) : option N :=
  match l with [] => None | (k, v) :: l' => if k =? c then Some v else assoc c l' end.

(** Letters with a place of their own. *)
Definition letterlike (f : font) (c : char) : option N :=
  match f with
  | FItalic => assoc c [(104, 8462)]
  | FScript => assoc c [(66, 8492); (69, 8496); (70, 8497); (72, 8459); (73, 8464); (76, 8466); (77, 8499);
                        (82, 8475); (101, 8495); (103, 8458); (111, 8500)]
  | FFraktur => assoc c [(67, 8493); (72, 8460); (73, 8465); (82, 8476); (90, 8488)]
  | FDoubleStruck => assoc c [(67, 8450); (72, 8461); (78, 8469); (80, 8473); (81, 8474); (82, 8477); (90, 8484)]
  | FDoubleStruckItalic => assoc c [(68, 8517); (100, 8518); (101, 8519); (105, 8520); (106, 8521)]
  | FBold => assoc c [(988, 120778); (989, 120779)]
  | _ => None
  end.

Definition plus (b : option N) (i : N) (c : char) : char := match b with Some b => b + i | None => c end.

(** The character of a font; characters without one stay as they are. *)
Definition styled (f : font) (c : char) : char :=
  match letterlike f c with
  | Some d => d
  | None =>
      if (65 <=? c) && (c <=? 90) then plus (latin f) (c - 65) c
      else if (97 <=? c) && (c <=? 122) then plus (latin f) (c - 97 + 26) c
      else if (48 <=? c) && (c <=? 57) then plus (digits f) (c - 48) c
      else match greek_index c with Some i => plus (greek f) i c | None => c end
  end.

Example styled_fraktur : styled FFraktur 71 = 120074. (* U+1D50A *)
Proof. reflexivity. Qed.
Example styled_planck : styled FItalic 104 = 8462.
Proof. reflexivity. Qed.
Example styled_omega : styled FBold 969 = 120538. (* U+1D6DA *)
Proof. reflexivity. Qed.

(** ** The capital letters

    The characters with the Unicode property Uppercase (version 14): runs of
    letters, each given by its first letter, the number of letters and the
    distance between them (two where capitals and small letters alternate). *)
Definition capital_runs : list (N * nat * N) := [
   (0x41, 26%nat, 1); (0xC0, 23%nat, 1); (0xD8, 7%nat, 1); (0x100, 28%nat, 2); (0x139, 8%nat, 2); (0x14A, 24%nat, 2); (0x179, 3%nat, 2);
   (0x181, 2%nat, 1); (0x184, 2%nat, 2); (0x187, 2%nat, 2); (0x18A, 2%nat, 1); (0x18E, 4%nat, 1); (0x193, 2%nat, 1); (0x196, 3%nat, 1);
   (0x19C, 2%nat, 1); (0x19F, 2%nat, 1); (0x1A2, 3%nat, 2); (0x1A7, 2%nat, 2); (0x1AC, 2%nat, 2); (0x1AF, 2%nat, 2); (0x1B2, 2%nat, 1);
   (0x1B5, 2%nat, 2); (0x1B8, 1%nat, 1); (0x1BC, 1%nat, 1); (0x1C4, 1%nat, 1); (0x1C7, 1%nat, 1); (0x1CA, 1%nat, 1); (0x1CD, 8%nat, 2);
   (0x1DE, 9%nat, 2); (0x1F1, 1%nat, 1); (0x1F4, 2%nat, 2); (0x1F7, 2%nat, 1); (0x1FA, 29%nat, 2); (0x23A, 2%nat, 1); (0x23D, 2%nat, 1);
   (0x241, 2%nat, 2); (0x244, 3%nat, 1); (0x248, 4%nat, 2); (0x370, 2%nat, 2); (0x376, 1%nat, 1); (0x37F, 1%nat, 1); (0x386, 2%nat, 2);
   (0x389, 2%nat, 1); (0x38C, 2%nat, 2); (0x38F, 2%nat, 2); (0x392, 16%nat, 1); (0x3A3, 9%nat, 1); (0x3CF, 1%nat, 1); (0x3D2, 3%nat, 1);
   (0x3D8, 12%nat, 2); (0x3F4, 1%nat, 1); (0x3F7, 2%nat, 2); (0x3FA, 1%nat, 1); (0x3FD, 51%nat, 1); (0x460, 17%nat, 2); (0x48A, 28%nat, 2);
   (0x4C1, 7%nat, 2); (0x4D0, 48%nat, 2); (0x531, 38%nat, 1); (0x10A0, 38%nat, 1); (0x10C7, 1%nat, 1); (0x10CD, 1%nat, 1);
   (0x13A0, 86%nat, 1); (0x1C90, 43%nat, 1); (0x1CBD, 3%nat, 1); (0x1E00, 75%nat, 2); (0x1E9E, 49%nat, 2); (0x1F08, 8%nat, 1);
   (0x1F18, 6%nat, 1); (0x1F28, 8%nat, 1); (0x1F38, 8%nat, 1); (0x1F48, 6%nat, 1); (0x1F59, 4%nat, 2); (0x1F68, 8%nat, 1);
   (0x1FB8, 4%nat, 1); (0x1FC8, 4%nat, 1); (0x1FD8, 4%nat, 1); (0x1FE8, 5%nat, 1); (0x1FF8, 4%nat, 1); (0x2102, 1%nat, 1);
   (0x2107, 1%nat, 1); (0x210B, 3%nat, 1); (0x2110, 3%nat, 1); (0x2115, 1%nat, 1); (0x2119, 5%nat, 1); (0x2124, 4%nat, 2);
   (0x212B, 3%nat, 1); (0x2130, 4%nat, 1); (0x213E, 2%nat, 1); (0x2145, 1%nat, 1); (0x2160, 16%nat, 1); (0x2183, 1%nat, 1);
   (0x24B6, 26%nat, 1); (0x2C00, 48%nat, 1); (0x2C60, 2%nat, 2); (0x2C63, 2%nat, 1); (0x2C67, 4%nat, 2); (0x2C6E, 3%nat, 1);
   (0x2C72, 1%nat, 1); (0x2C75, 1%nat, 1); (0x2C7E, 3%nat, 1); (0x2C82, 49%nat, 2); (0x2CEB, 2%nat, 2); (0x2CF2, 1%nat, 1);
   (0xA640, 23%nat, 2); (0xA680, 14%nat, 2); (0xA722, 7%nat, 2); (0xA732, 31%nat, 2); (0xA779, 3%nat, 2); (0xA77E, 5%nat, 2);
   (0xA78B, 2%nat, 2); (0xA790, 2%nat, 2); (0xA796, 11%nat, 2); (0xA7AB, 4%nat, 1); (0xA7B0, 5%nat, 1); (0xA7B6, 8%nat, 2);
   (0xA7C5, 3%nat, 1); (0xA7C9, 1%nat, 1); (0xA7D0, 1%nat, 1); (0xA7D6, 2%nat, 2); (0xA7F5, 1%nat, 1); (0xFF21, 26%nat, 1);
   (0x10400, 40%nat, 1); (0x104B0, 36%nat, 1); (0x10570, 11%nat, 1); (0x1057C, 15%nat, 1); (0x1058C, 7%nat, 1); (0x10594, 2%nat, 1);
   (0x10C80, 51%nat, 1); (0x118A0, 32%nat, 1); (0x16E40, 32%nat, 1); (0x1D400, 26%nat, 1); (0x1D434, 26%nat, 1); (0x1D468, 26%nat, 1);
   (0x1D49C, 2%nat, 2); (0x1D49F, 1%nat, 1); (0x1D4A2, 1%nat, 1); (0x1D4A5, 2%nat, 1); (0x1D4A9, 4%nat, 1); (0x1D4AE, 8%nat, 1);
   (0x1D4D0, 26%nat, 1); (0x1D504, 2%nat, 1); (0x1D507, 4%nat, 1); (0x1D50D, 8%nat, 1); (0x1D516, 7%nat, 1); (0x1D538, 2%nat, 1);
   (0x1D53B, 4%nat, 1); (0x1D540, 5%nat, 1); (0x1D546, 1%nat, 1); (0x1D54A, 7%nat, 1); (0x1D56C, 26%nat, 1); (0x1D5A0, 26%nat, 1);
   (0x1D5D4, 26%nat, 1); (0x1D608, 26%nat, 1); (0x1D63C, 26%nat, 1); (0x1D670, 26%nat, 1); (0x1D6A8, 25%nat, 1); (0x1D6E2, 25%nat, 1);
   (0x1D71C, 25%nat, 1); (0x1D756, 25%nat, 1); (0x1D790, 25%nat, 1); (0x1D7CA, 1%nat, 1); (0x1E900, 34%nat, 1); (0x1F130, 26%nat, 1);
   (0x1F150, 26%nat, 1); (0x1F170, 26%nat, 1)].

Fixpoint stepping (n : nat) (c step : N) : list N :=
  match n with O => [] | S n' => c :: stepping n' (c + step) step end.

Definition capitals : list char := flat_map (fun r => stepping (snd (fst r)) (fst (fst r)) (snd r)) capital_runs.
