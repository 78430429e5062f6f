#!/usr/bin/env python3
"""Writes /verif/MANIFEST.json and rocq/theories/Audit.v from the claims below."""
import json
C=[]
def claim(p,status,thms,note): C.append(dict(property=p,status=status,theorems=thms.split(),note=note))
claim("C01","proved","C01_perfect_reconstruction C01_C02_reconstruction mode_none_is_reflect","Any rank/shape/axis/mode/level, any even-length PR bank over any commutative ring in which 2 is cancellable; exact arithmetic.")
claim("C02","proved","C02_length_and_trailing_sample C01_C02_reconstruction","")
claim("C03","proved","C03_wavedec_is_dwt","")
claim("C04","proved","C04_number_and_sizes","")
claim("C05","proved","C05_wavedec_linear C05_waverec_linear","waverec: coefficient lists whose batch dimensions agree (see C11_batch_shape_not_checked_refuted for the others).")
claim("C06","proved","C06_wavedec_fibrewise C06_waverec_fibrewise","")
claim("C07","proved","C07_default_level","")
claim("C08","proved","C08_which_levels","")
claim("C09","proved","C09_symmetric_padding C09_empty_axis_diverges","")
claim("C11","proved","C11_waverec_rejects_inconsistent C11_accepted C11_batch_shape_not_checked_refuted","1d. Additionally refuted: batch dimensions of details are not checked (finding).")
claim("C12","proved","C12_pre_post_inverse","")
exec(open('/verif/tools/claims_more.py').read())
C.sort(key=lambda c:c['property'])
json.dump({"claims":C},open('/verif/MANIFEST.json','w'),indent=1)
