-Q theories Verif
theories/Base.v
theories/CBModel.v
theories/CBModel2.v
theories/CBModel3.v
theories/CBModel4.v
theories/CBModel5.v
theories/CBSpec.v
theories/CBSpec2.v
theories/CBSpec3.v
theories/CBRun.v
theories/CBRun2.v
theories/CBRun3.v
theories/CBProofs.v
theories/CBProofs2.v
theories/CBProofs3.v
theories/CBProofs4.v
theories/CBProofs5.v
theories/CBProofs6.v
theories/CBProofs7.v
theories/CBProofs8.v
theories/CBProofs9.v
theories/CBProofs10.v
theories/CBProofs11.v
theories/CBProps.v
theories/CBProps2.v
theories/CBProps3.v
theories/CBProps4.v
theories/CBProps5.v
theories/CBProps6.v
theories/CBSpec4.v
theories/CBProofs12.v
theories/CBProps7.v
theories/CBSpec5.v
theories/CBModel6.v
theories/CBProofs13.v
theories/CBProps8.v
theories/CBSpec6.v
theories/CBModel7.v
theories/CBRun4.v
theories/CBProofs14.v
theories/CBProofs15.v
theories/CBProofs16.v
theories/CBProps9.v
theories/CBSpec7.v
theories/CBProps10.v
theories/IVModel.v
theories/IVModel2.v
theories/IVModel3.v
theories/IVSpec.v
theories/IVRun.v
theories/IVProofs.v
theories/IVProofs2.v
theories/IVProofs3.v
theories/IVProofs4.v
theories/IVProofs5.v
theories/IVProofs6.v
theories/IVProps1.v
theories/IVProps2.v
theories/IVProps3.v
theories/IVProps4.v
theories/IVProps5.v
theories/IVProps6.v
theories/IVProps7.v
theories/IVModel4.v
theories/IVProps8.v
theories/IVModel5.v
theories/IVRun5.v
theories/IVProps9.v
theories/IVProps10.v
theories/IVModel6.v
theories/IVRun6.v
theories/IVProofs7.v
theories/IVProofs8.v
theories/IVProps11.v
theories/IVSpec2.v
theories/IVProofs9.v
theories/IVProps12.v
theories/IVSpec3.v
theories/IVRun7.v
theories/IVProps13.v
theories/HMModel.v
theories/HMProofs.v
theories/UserSpec.v
theories/UserSpec2.v
theories/CTModel.v
theories/CTModel2.v
theories/CTModel3.v
theories/CTSpec.v
theories/CTSpec2.v
theories/CTSpec3.v
theories/CTRun.v
theories/CTRun2.v
theories/CTProofs.v
theories/CTProofs2.v
theories/CTProofs3.v
theories/CTProofs4.v
theories/CTProofs5.v
theories/CTProofs6.v
theories/CTProofs7.v
theories/CTProps.v
theories/CTProps2.v
theories/CTProps3.v
theories/CTProps4.v
theories/CTModel4.v
theories/CTSpec4.v
theories/CTRun3.v
theories/CTProps5.v
theories/CTModel5.v
theories/CTSpec5.v
theories/SortSpec.v
theories/SortProofs.v
theories/CTProofs8.v
theories/CTProps6.v
theories/CTSpec6.v
theories/CTProofs9.v
theories/CTProps7.v
theories/OwnSpec.v
theories/OwnProofs.v
theories/CTModel6.v
theories/CTSpec7.v
theories/CTProofs10.v
theories/CTProofs11.v
theories/CTProps8.v
theories/CTSpec8.v
theories/CTModel7.v
theories/CTProofs12.v
theories/CTProps9.v
theories/CTSpec9.v
theories/CTProps10.v
theories/DSModel.v
theories/DSModel2.v
theories/DSModel3.v
theories/DSSpec.v
theories/DSSpec2.v
theories/DSSpec3.v
theories/DSRun.v
theories/DSProofs.v
theories/DSProofs2.v
theories/DSProofs3.v
theories/DSProofs4.v
theories/DSProofs5.v
theories/DSProofs6.v
theories/DSRun2.v
theories/DSProofs7.v
theories/DSProps.v
theories/DSAck.v
theories/DSCost.v
theories/DSAmort.v
theories/DSLower.v
theories/DSFlat.v
theories/DSProps2.v
theories/DSProps3.v
theories/DSProps4.v
theories/DSProps5.v
theories/DSRun3.v
theories/DSProofs8.v
theories/DSProps6.v
theories/DSModel4.v
theories/DSRun4.v
theories/DSProps7.v
theories/DBModel.v
theories/DBProps.v
theories/TextSpec.v
theories/DSModel5.v
theories/DSProofs10.v
theories/DSProofs11.v
theories/DSProofs12.v
theories/DSProps8.v
theories/DSProofs13.v
theories/DSProps9.v
theories/DSModel6.v
theories/DSProofs14.v
theories/DSProps10.v
theories/DSProps11.v
theories/PPModel.v
theories/PPRun.v
theories/PPProofs.v
theories/PPProps.v
theories/FMModel.v
theories/FMSpec.v
theories/FMRun.v
theories/FMProofs.v
theories/FMProofs2.v
theories/FMProps.v
theories/HTModel.v
theories/HTProofs.v
theories/HTRun.v
theories/HTProofs2.v
theories/HTProps.v
theories/HTModel2.v
theories/HTProofs3.v
theories/HTProps2.v
theories/GTModel.v
theories/GTSpec.v
theories/GTRun.v
theories/GTProofs.v
theories/GTProofs2.v
theories/GTProofs3.v
theories/GTProofs4.v
theories/GTProps.v
theories/GTModel2.v
theories/GTRun2.v
theories/GTProofs5.v
theories/GTProps2.v
theories/GTSpec2.v
theories/GTRun3.v
theories/GTProofs6.v
theories/GTProps3.v
theories/GTModel3.v
theories/GTProofs7.v
theories/GTProps4.v
theories/GTModel4.v
theories/GTProps5.v
theories/GTProofs8.v
theories/GTProps6.v
theories/Validation.v
