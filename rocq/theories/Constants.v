(** Unit lists of /repo/math_evaluation/core/constants.py. *)
From Coq Require Import String List NArith.
From Verif Require Import PyStr.
Import ListNotations.

(** constants.py:24-76 *)
Definition UNIT_LONG_LIST : list pystr :=
  [u "立方厘米"; u "立方分米"; u "平方公里"; u "平方英尺"; u "平方英里"; u "平方英寸"; u "平方英寻"; u "平方英尺";
   u "千公里"; u "平方米"; u "立方米"; u "千米"; u "厘米"; u "分米"; u "海里"; u "毫米"; u "公里"; u "英里";
   u "公尺"; u "英尺"; u "元"; u "分"; u "角"; u "米"; u "度"; u "里"; u "升";
   u "centimeter"; u "second"; u "degree"; u "dollar"; u "minute"; u "radian"; u "square"; u "pound"; u "month";
   u "units"; u "meter"; u "edges"; u "mile"; u "hour"; u "year"; u "cent"; u "foot"; u "feet"; u "inch";
   u "yard"; u "week"; u "day"; u "rad"; u "mph"].
(** constants.py:78-97 *)
Definition UNIT_SHORT_LIST : list pystr :=
  [u "eV"; u "kg"; u "mg"; u "km"; u "cm"; u "dm"; u "ml"; u "mL"; u "ft"; u "in";
   u "a.m."; u "p.m."; u "A.M."; u "P.M."; u "am"; u "AM"; u "PM"; u "pm"].
(** constants.py:99-104 *)
Definition UNIT_SINGLE_LIST : list pystr := [u "L"; u "l"; u "m"; u "g"].
(** constants.py:106 *)
Definition UNIT_LIST : list pystr := UNIT_LONG_LIST ++ UNIT_SHORT_LIST ++ UNIT_SINGLE_LIST.
